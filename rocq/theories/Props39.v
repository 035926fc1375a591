(** Props39.v — C90: the state diagram.  Theorems only; see DiagramSpec.v. *)

From Coq Require Import String List Bool Arith.
From Verif Require Import MacroSyntax MacroLower MacroGen MacroSem MacroSpec.
From Verif Require Import Machine Api Spec DiagramSpec Examples.
From Verif Require DiagramProofs HistoryProofs Props7.
Import ListNotations.
Open Scope string_scope.
Open Scope list_scope.

(** C90.  A call follows at most one arrow of the diagram, however it ends.  The callbacks it runs are
    those of the leaf where it starts and of the superstates around it, and after these those of the
    leaf where it ends and of the superstates around that. *)
Theorem C90_one_arrow :
  forall (h : hierarchy) (m : machine) (stack : nat) (md : mode) (o : op m) (sm sm' : state_machine m)
         (out : outcome unit) (cx : option (Ctx m)) (tr : list (obs m)),
    well_formed h m stack -> faithful_views m -> calm o ->
    exec stack md o sm = (out, sm', cx, tr) ->
    let s := s_disc m (sm_state sm) in
    let s' := s_disc m (sm_state sm') in
    (s' = s /\ Forall (within h m s) tr) \/
    (arrow h m s s' /\
     exists t1 t2, tr = t1 ++ t2 /\ Forall (within h m s) t1 /\ Forall (within h m s') t2).
Proof.
  intros h m stack md o sm sm' out cx tr W V C E.
  exact (DiagramProofs.exec_diagram h m stack md W V o sm out sm' cx tr C E).
Qed.
Print Assumptions C90_one_arrow.

(** So a machine is only ever in states that can be reached in the diagram, and nothing is called but
    the callbacks of those and of the superstates around them, in any history, aborted calls included. *)
Theorem C90_reachable :
  forall (h : hierarchy) (m : machine) (stack : nat) (md : mode) (ops : list (op m))
         (sm : state_machine m) (cs : list (called m)) (sm' : state_machine m),
    well_formed h m stack -> faithful_views m -> Forall (@calm m) ops ->
    history stack md ops sm cs sm' ->
    way h m (s_disc m (sm_state sm)) (s_disc m (sm_state sm')) /\
    Forall (fun o => exists t, way h m (s_disc m (sm_state sm)) t /\ within h m t o) (log_of cs).
Proof.
  intros h m stack md ops sm cs sm' W V C H.
  exact (DiagramProofs.history_diagram h m stack md W V ops sm cs sm' C H).
Qed.
Print Assumptions C90_reachable.

(** A leaf without arrows to other leaves is never left. *)
Theorem C90_final :
  forall (h : hierarchy) (m : machine) (stack : nat) (md : mode) (ops : list (op m))
         (sm : state_machine m) (cs : list (called m)) (sm' : state_machine m),
    well_formed h m stack -> faithful_views m -> Forall (@calm m) ops ->
    (forall t, arrow h m (s_disc m (sm_state sm)) t -> t = s_disc m (sm_state sm)) ->
    history stack md ops sm cs sm' ->
    s_disc m (sm_state sm') = s_disc m (sm_state sm).
Proof.
  intros h m stack md ops sm cs sm' W V C F H.
  destruct (C90_reachable h m stack md ops sm cs sm' W V C H) as [A _].
  induction A as [|t u _ IH B]; [reflexivity|]. rewrite IH in B. exact (F u B).
Qed.
Print Assumptions C90_final.

(** Machines that the macro generates. *)
Theorem C90_generated :
  forall (o : orders) (args : list meta) (item : item_impl) (g : generated)
         (Val Sh Ev Cx : Type) (B : bodies Val Sh Ev Cx g) (stack : nat),
    expand o args item = Done g -> compiles g -> acyclic item ->
    1 <= stack -> length (filter (marked "superstate") (methods item)) <= stack ->
    exists h, well_formed h (generated_machine B) stack /\
      forall (md : mode) (ops : list (op (generated_machine B))) (sm : state_machine (generated_machine B)) cs sm',
        Forall (@calm (generated_machine B)) ops -> history stack md ops sm cs sm' ->
        way h (generated_machine B) (s_disc _ (sm_state sm)) (s_disc _ (sm_state sm')).
Proof.
  intros o args item g Val Sh Ev Cx B stack E CO AC S1 S2.
  destruct (Props7.C31_well_formed o args item g Val Sh Ev Cx B stack E CO AC S1 S2) as (h & W & V).
  exists h. split; [exact W|]. intros md ops sm cs sm' C H.
  exact (proj1 (C90_reachable h _ stack md ops sm cs sm' W V C H)).
Qed.
Print Assumptions C90_generated.

(** The diagram of [demo]: from `Fault` there is one arrow, to `Idle`; from `On`, in `Blinking` in
    `Powered`, one goes to `Fault` because of `Powered`. *)
Example C90_case :
  well_formed demo_hierarchy (demo true) 2 /\ faithful_views (demo true) /\
  (forall t, arrow demo_hierarchy (demo true) 3 t <-> t = 2) /\
  arrow demo_hierarchy (demo true) 0 3 /\ way demo_hierarchy (demo true) 0 2.
Proof.
  assert (A3 : forall t, arrow demo_hierarchy (demo true) 3 t <-> t = 2).
  { intros t. split.
    - intros (n & sh & cx & e & tg & n' & sh' & cx' & (p & (l & C & ->) & I) & E & <-).
      inversion C; subst. destruct I as [I|[]].
      destruct n as [x|u]; [|discriminate]. destruct x as [k|k|k|]; try discriminate.
      destruct e; cbn in E; try discriminate. now injection E as <- _ _ _.
    - intros ->. exists (NState (Fault : State (demo true))), [], 0, Button, (Idle 7 : State (demo true)), (NState (Fault : State (demo true))), [], 0.
      split; [|split; reflexivity]. exists [AtState 3]. split; [exists []; split; [constructor|reflexivity]|now left]. }
  assert (A0 : arrow demo_hierarchy (demo true) 0 3).
  { exists (NSuper (Powered 1 : Sup (demo true))), [], 0, Halt, (Fault : State (demo true)), (NSuper (Powered 21 : Sup (demo true))), [], 0.
    split; [|split; reflexivity].
    exists [AtSuper 1; AtSuper 0; AtState 0]. split; [|now left].
    exists [0; 1]. split; [|reflexivity]. cbn. repeat (constructor; cbn). }
  split; [exact (demo_well_formed true)|]. split; [exact (demo_views true)|]. split; [exact A3|]. split; [exact A0|].
  econstructor; [econstructor; [constructor|exact A0]|]. now apply A3.
Qed.
