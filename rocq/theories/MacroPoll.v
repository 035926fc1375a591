(** MacroPoll.v — what the code generated by `#[state_machine]` in the awaitable mode does, poll
    by poll: the `async move { match self { .. } }` blocks of codegen.rs:295-345 and :453-502 and
    the hooks of codegen.rs:60-154, as the futures of Poll.v.  No proofs here.

    MacroSem.v gives the same code a meaning in which a call is atomic.

    Simplifications: as in MacroSem.v and Poll.v.  A method that is not `async` is the function
    of MacroSem.v; `Cancelled` makes no sense for it and is taken as a panic. *)

From Coq Require Import String List Bool Arith.
From Verif Require Import MacroSyntax MacroVisit MacroAnalyze MacroLower MacroGen MacroSem.
From Verif Require Import Machine Api Poll.
Import ListNotations.
Open Scope string_scope.
Open Scope list_scope.
Set Implicit Arguments.

Section Combinators.
  Variable World : Type.

  (** Code without an `.await`: ready at the first poll. *)
  Definition at_once {S A} (g : S -> reply A * S) : ufut World S A :=
    UFut (fun _ s => let '(r, s') := g s in
                     UReady (match r with Returns a => Some a | _ => None end) s').
  (** Which future this is, is found out at the first poll. *)
  Definition on_first_poll {S A} (choose : S -> ufut World S A) : ufut World S A :=
    UFut (fun w s => upoll (choose s) w s).
  (** A future that has borrowed a part [v] of [s0] (as [borrowed] in Poll.v). *)
  CoFixpoint uborrowed {S V A} (put : S -> V -> S) (s0 : S) (v : V) (c : ufut World V A) : ufut World S A :=
    UFut (fun w _ =>
      match upoll c w v with
      | UReady a v' => UReady a (put s0 v')
      | UPending v' c' => UPending (put s0 v') (uborrowed put s0 v' c')
      end).
End Combinators.
Arguments at_once {World S A}.
Arguments on_first_poll {World S A}.
Arguments uborrowed {World S V A}.

Section MacroPoll.
  Variable World : Type.
  Variables Val Sh Ev Cx : Type.
  Variable g : generated.
  Variable B : bodies Val Sh Ev Cx g.
  Notation State := (value Val (g_state_variants g)).
  Notation SuperV := (value Val (g_super_variants g)).
  Notation arg := (arg Val Sh Ev Cx).

  (** What the user's `async fn`s return: futures that have borrowed the arguments. *)
  Record async_bodies : Type := AsyncBodies {
    fb_handler : ident -> ufut World (list arg) (response State);
    fb_action : ident -> ufut World (list arg) unit;
    fb_dispatch_hook : path -> node State SuperV -> Ev -> ufut World Sh unit;
    fb_transition_hook : path -> State -> State -> ufut World Sh unit
  }.
  Variable FB : async_bodies.

  Section Calls.
    Variable d : enum.
    Notation store := (value Val d * Sh * Cx)%type.

    (** lower.rs:522-529, :582-589, :633-640 — `Path::f(args).await` if the method is `async`,
        else `Path::f(args)`; the arguments are resolved as in [run_call]. *)
    Definition polled_call {A} (run : ident -> list arg -> reply A * list arg)
        (futs : ident -> ufut World (list arg) A) (fields : list ident) (e : option Ev)
        (f : ident) (args : list ident) (awaited : bool) : ufut World store A :=
      if awaited then
        on_first_poll (fun s : store =>
          match all_some (map (resolve g fields (match e with Some _ => true | None => false end)) args) with
          | None => at_once (fun s => (Panics, s))
          | Some sls =>
              match all_some (map (read s e) sls) with
              | None => at_once (fun s => (Panics, s))
              | Some as_ => uborrowed (fun s as' => write_all s sls as') s as_ (futs f)
              end
          end)
      else at_once (fun s => run_call g run fields e f args s).

    (** codegen.rs:300-312, :455-467 — `call_handler`. *)
    Definition polled_handler (arms : list (pattern * code)) (e : Ev) : ufut World store (response State) :=
      on_first_poll (fun s : store =>
        match select arms (tag (fst (fst s))) with
        | Some (p, Call _ f args awaited) =>
            polled_call (b_handler B) (fb_handler FB) (p_fields p) (Some e) f args awaited
        | Some (_, EmptyBlock) => at_once (fun s => (Panics, s))
        | None => at_once (fun s => (Returns Super, s))
        end).
    (** codegen.rs:314-338, :469-493 — `call_entry_action`, `call_exit_action`. *)
    Definition polled_action (arms : list (pattern * code)) : ufut World store unit :=
      on_first_poll (fun s : store =>
        match select arms (tag (fst (fst s))) with
        | Some (p, Call _ f args awaited) =>
            polled_call (b_action B) (fb_action FB) (p_fields p) None f args awaited
        | Some (_, EmptyBlock) => at_once (fun s => (Returns tt, s))
        | None => at_once (fun s => (Returns tt, s))
        end).
  End Calls.

  (** codegen.rs:60-154: in the awaitable mode a hook method returns the future of the user's
      hook; the default is a future that is ready (awaitable/into_state_machine.rs:29-63). *)
  Definition polled_hook (c : hook_code) (run : path -> Sh -> reply unit * Sh)
      (fut : path -> ufut World Sh unit) : ufut World Sh unit :=
    match c with
    | HookFuture p => fut p
    | c => at_once (run_hook B c run)
    end.

  Definition generated_futures : futures World (generated_machine B) :=
    @Futures World (generated_machine B)
      (polled_handler (g_state_variants g) (call_handler_arms (g_state_arms g)))
      (polled_action (g_state_variants g) (call_entry_action_arms (g_state_arms g)))
      (polled_action (g_state_variants g) (call_exit_action_arms (g_state_arms g)))
      (polled_handler (g_super_variants g) (call_handler_arms (g_super_arms g)))
      (polled_action (g_super_variants g) (call_entry_action_arms (g_super_arms g)))
      (polled_action (g_super_variants g) (call_exit_action_arms (g_super_arms g)))
      (fun n e => polled_hook (g_before_dispatch g) (fun p sh => b_dispatch_hook B p sh n e)
                    (fun p => fb_dispatch_hook FB p n e))
      (fun n e => polled_hook (g_after_dispatch g) (fun p sh => b_dispatch_hook B p sh n e)
                    (fun p => fb_dispatch_hook FB p n e))
      (fun a b => polled_hook (g_before_transition g) (fun p sh => b_transition_hook B p sh a b)
                    (fun p => fb_transition_hook FB p a b))
      (fun a b => polled_hook (g_after_transition g) (fun p sh => b_transition_hook B p sh a b)
                    (fun p => fb_transition_hook FB p a b)).
End MacroPoll.
