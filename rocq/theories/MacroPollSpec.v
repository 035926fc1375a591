(** MacroPollSpec.v — C96: the user's `async fn`s, and how often they are pending.
    Specification only. *)

From Coq Require Import String List Bool Arith.
From Verif Require Import MacroSyntax MacroVisit MacroAnalyze MacroLower MacroGen MacroSem MacroPoll.
From Verif Require Import Machine Api Poll PaceSpec.
Import ListNotations.
Set Implicit Arguments.

Section Spec.
  Variable World : Type.
  Variables Val Sh Ev Cx : Type.
  Variable item : item_impl.
  Variable g : generated.
  Variable B : bodies Val Sh Ev Cx g.
  Variable FB : async_bodies World Val Sh Ev Cx g.

  (** The methods that are `async` compute, when they get ready, what [B] says; hooks
      return futures that do. *)
  Record async_computes : Prop := {
    ac_handler : forall f, In f (methods item) -> m_async f = true ->
      computes (fb_handler FB (m_name f)) (b_handler B (m_name f));
    ac_action : forall f, In f (methods item) -> m_async f = true ->
      computes (fb_action FB (m_name f)) (b_action B (m_name f));
    ac_dispatch : forall p n e, computes (fb_dispatch_hook FB p n e) (fun sh => b_dispatch_hook B p sh n e);
    ac_transition : forall p a b, computes (fb_transition_hook FB p a b) (fun sh => b_transition_hook B p sh a b)
  }.

  (** The functions as they are when each of them is given these polls: an `async` method that
      is not ready by then is cancelled, having written what it wrote. *)
  Definition is_async (f : ident) : bool :=
    existsb (fun m => (m_name m =? f)%string && m_async m) (methods item).
  Definition polled_body {A} (w : World) (ws : list World) (run : ident -> list (arg Val Sh Ev Cx) -> reply A * list (arg Val Sh Ev Cx))
      (fut : ident -> ufut World (list (arg Val Sh Ev Cx)) A) (f : ident) (args : list (arg Val Sh Ev Cx))
    : reply A * list (arg Val Sh Ev Cx) :=
    if is_async f then let '(o, args', _) := udrive (fut f) w ws args in (reply_of o, args') else run f args.
  Definition polled_bodies (w : World) (ws : list World) : bodies Val Sh Ev Cx g :=
    @Bodies Val Sh Ev Cx g (polled_body w ws (b_handler B) (fb_handler FB))
            (polled_body w ws (b_action B) (fb_action FB))
            (b_dispatch_hook B) (b_transition_hook B) (b_async B) (b_initial B).
  (** Nobody can cancel a method that is not `async`. *)
  Definition sync_not_cancelled : Prop :=
    forall f args, In f (methods item) -> m_async f = false ->
      fst (b_handler B (m_name f) args) <> Cancelled /\ fst (b_action B (m_name f) args) <> Cancelled.

  (** The future of an `async` method or of a hook is pending at most [k] times. *)
  Record async_paced (k : nat) : Prop := {
    ap_handler : forall f args, In f (methods item) -> m_async f = true -> pends 0 k (fb_handler FB (m_name f)) args;
    ap_action : forall f args, In f (methods item) -> m_async f = true -> pends 0 k (fb_action FB (m_name f)) args;
    ap_dispatch : forall p n e sh, pends 0 k (fb_dispatch_hook FB p n e) sh;
    ap_transition : forall p a b sh, pends 0 k (fb_transition_hook FB p a b) sh
  }.
End Spec.
