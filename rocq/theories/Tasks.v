(** Tasks.v — several awaitable machines on one executor.  The machines are those of Poll.v; the
    clients' tasks and the executor, which are not part of statig, are the simplest that use it:

      async move { for e in events { sm.handle_with_context(&e, &mut cx).await; } }

    and an executor that polls one task after the other, in any order, and no task again that has
    finished or panicked.  No proofs here. *)

From Coq Require Import List Bool Arith.
From Verif Require Import Machine Api Poll.
Import ListNotations.
Set Implicit Arguments.

Section Task.
  Variable World : Type.

  (** A task before it is spawned: the machine's type and callbacks, its value, the events, and the
      context (one for all events). *)
  Record job : Type := Job {
    j_m : machine;
    j_F : futures World j_m;
    j_stack : nat;
    j_events : list (Event j_m);
    j_sm : state_machine j_m;
    j_cx : Ctx j_m
  }.

  (** The loop, as a future (awaitable/state_machine.rs:89-99 for each event). *)
  Fixpoint a_session {m : machine} (F : futures World m) (stack : nat) (es : list (Event m))
    : fut World m (state_machine m * Ctx m) unit :=
    match es with
    | [] => aret tt
    | e :: es' => abind (a_handle_with_context F stack e) (fun _ => a_session F stack es')
    end.

  (** A spawned task: what is left of its future, the machine and context it owns, the calls into
      user code so far, and how it ended. *)
  Record progress (m : machine) : Type := Progress {
    p_fut : fut World m (state_machine m * Ctx m) unit;
    p_store : state_machine m * Ctx m;
    p_log : list (obs m);
    p_end : option (outcome unit)
  }.
  Definition spawn (j : job) : progress (j_m j) :=
    Progress (a_session (j_F j) (j_stack j) (j_events j)) (j_sm j, j_cx j) [] None.
  Definition poll_task {m : machine} (w : World) (p : progress m) : progress m :=
    match p_end p with
    | Some _ => p
    | None =>
        match poll (p_fut p) w (p_store p) with
        | PReady o s tr => Progress (p_fut p) s (p_log p ++ tr) (Some o)
        | PPending s tr f => Progress f s (p_log p ++ tr) None
        end
    end.

  (** The executor: [(i, w)] polls the task [i] in the world [w]. *)
  Definition task : Type := { m : machine & progress m }.
  Fixpoint update (i : nat) (f : task -> task) (ts : list task) : list task :=
    match ts, i with
    | [], _ => []
    | t :: ts', 0 => f t :: ts'
    | t :: ts', S i' => t :: update i' f ts'
    end.
  Definition poll_it (w : World) (t : task) : task := existT _ (projT1 t) (poll_task w (projT2 t)).
  Fixpoint run_pool (schedule : list (nat * World)) (ts : list task) : list task :=
    match schedule with
    | [] => ts
    | (i, w) :: rest => run_pool rest (update i (poll_it w) ts)
    end.
  Definition spawn_all (js : list job) : list task := map (fun j => existT _ (j_m j) (spawn j)) js.
End Task.
Arguments Progress {World m}.
Arguments p_fut {World m}.
Arguments p_store {World m}.
Arguments p_log {World m}.
Arguments p_end {World m}.
