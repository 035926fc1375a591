(** Props29.v — C80: what callbacks keep of a state's storage.  Theorems only; see
    ConstSpec.v. *)

From Coq Require Import String List Bool Arith Lia.
From Verif Require Import MacroSyntax MacroLower MacroGen MacroSem MacroSpec MacroExamples.
From Verif Require Import Machine Api Spec ConstSpec.
From Verif Require ConstProofs ConstMacroProofs Props7.
Import ListNotations.
Open Scope string_scope.
Open Scope list_scope.

(** C80.  Suppose every handler and action keeps [R] for the node it is called for, and writing
    back through a borrow keeps it too ([lasting]).  Then over a whole call [R] leads from the
    state before to the state after if no transition was asked for, and from the target of the
    transition otherwise — also when the call panicked, except that then the transition may not
    have got as far as the target. *)
Theorem C80_call :
  forall (h : hierarchy) (m : machine) (stack : nat) (md : mode)
         (R : node (State m) (Sup m) -> node (State m) (Sup m) -> Prop)
         (o : op m) (sm : state_machine m) out sm' cx tr,
    well_formed h m stack -> faithful_views m -> lasting m R -> hands_off o ->
    exec stack md o sm = (out, sm', cx, tr) ->
    match out with
    | Ret _ => (targets tr = [] /\ R (NState (sm_state sm)) (NState (sm_state sm'))) \/
               (exists t, targets tr = [t] /\ R (NState t) (NState (sm_state sm')))
    | Abort _ => R (NState (sm_state sm)) (NState (sm_state sm')) \/
               (exists t, targets tr = [t] /\ R (NState t) (NState (sm_state sm')))
    end.
Proof.
  intros h m stack md R o sm out sm' cx tr [Hf Hs Hh] Hv U C E.
  exact (@ConstProofs.exec_part h m stack Hf Hs Hv Hh R U md o sm out sm' cx tr C E).
Qed.
Print Assumptions C80_call.

(** Over any history of completed calls in which the client does not write the state itself, it
    leads from the last target (from the first state, if there was none) to the state at the
    end.  Whatever panics, it leads there from the first state or from one of the targets. *)
Theorem C80_history :
  forall (h : hierarchy) (m : machine) (stack : nat) (md : mode)
         (R : node (State m) (Sup m) -> node (State m) (Sup m) -> Prop)
         (ops : list (op m)) (sm : state_machine m) (cs : list (called m)) (sm' : state_machine m),
    well_formed h m stack -> faithful_views m -> lasting m R -> Forall hands_off ops ->
    history stack md ops sm cs sm' ->
    (completed cs -> R (NState (last (targets (log_of cs)) (sm_state sm))) (NState (sm_state sm'))) /\
    (R (NState (sm_state sm)) (NState (sm_state sm')) \/
     exists t, In t (targets (log_of cs)) /\ R (NState t) (NState (sm_state sm'))).
Proof.
  intros h m stack md R ops sm cs sm' [Hf Hs Hh] Hv U C H. split.
  - exact (@ConstProofs.history_last h m stack Hf Hs Hv Hh R U md ops sm cs sm' C H).
  - exact (@ConstProofs.history_part h m stack Hf Hs Hv Hh R U md ops sm cs sm' C H).
Qed.
Print Assumptions C80_history.

(** In a machine that the macro generates: if the state [m], the superstates around it and
    their actions take the field [f] as a shared reference or not at all, then between two
    transitions the field never changes: at the end of any completed calls it has the value
    that the last transition gave it.  Whatever panics, it has the value it had at first or
    one that a transition to that state gave it. *)
Theorem C80_read_only :
  forall (o : orders) (args : list meta) (item : item_impl) (g : generated)
         (Val Sh Ev Cx : Type) (B : bodies Val Sh Ev Cx g) (stack : nat) (md : mode) (m : impl_fn) (f : ident)
         (ops : list (op (generated_machine B))) (sm : state_machine (generated_machine B)) cs sm',
    expand o args item = Done g -> compiles g -> hygienic item g -> acyclic item ->
    1 <= stack -> length (filter (marked "superstate") (methods item)) <= stack ->
    borrow_checked item B -> In m (methods item) -> marked "state" m = true -> read_only item f m ->
    f <> g_event_ident g -> f <> g_context_ident g ->
    Forall hands_off ops -> history stack md ops sm cs sm' ->
    (completed cs ->
     let t := last (targets (log_of cs)) (sm_state sm) in
     tag (sm_state sm') = tag t /\
     (tag t = variant_of m -> get_field (sm_state sm') f = get_field t f)) /\
    (tag (sm_state sm') = variant_of m ->
     exists t, (t = sm_state sm \/ In t (targets (log_of cs))) /\ tag t = variant_of m /\
               get_field (sm_state sm') f = get_field t f).
Proof.
  intros o args item g Val Sh Ev Cx B stack md m f ops sm cs sm' E CO HY AC S1 S2 BC Im Km RO Fe Fc C H.
  destruct (Props7.C31_well_formed o args item g Val Sh Ev Cx B stack E CO AC S1 S2) as (h & W & V).
  pose proof (@ConstMacroProofs.read_only_lasts o args item g Val Sh Ev Cx B E CO HY BC m f Im Km RO Fe Fc) as U.
  destruct (C80_history h _ stack md _ ops sm cs sm' W V U C H) as [H1 H2]. split.
  - intros D. exact (H1 D).
  - intros T. destruct H2 as [[T' G]|(t & J & T' & G)].
    + exists (sm_state sm). assert (T2 : tag (sm_state sm) = variant_of m) by congruence.
      split; [now left|]. split; [exact T2|exact (G T2)].
    + exists t. assert (T2 : tag t = variant_of m) by congruence.
      split; [now right|]. split; [exact T2|exact (G T2)].
Qed.
Print Assumptions C80_read_only.

(** A meter: the limit is fixed when the state is entered, what has been counted never goes
    down, and the superstate counts too. *)
Inductive meter_state := Metering (limit seen : nat) | Resting.
Inductive meter_super := Session (limit seen : nat).
Inductive meter_event := Seen | Batch (n : nat) | Begin (n : nat) | Broken.
Definition meter : machine := {|
  State := meter_state; Sup := meter_super; Shared := unit; Event := meter_event; Ctx := unit;
  initial := Resting;
  s_disc := fun x => match x with Metering _ _ => 0 | Resting => 1 end; u_disc := fun _ => 0;
  s_super := fun x => match x with Metering l s => Some (Session l s) | Resting => None end;
  s_put := fun x u => match x, u with Metering _ _, Session l s => Metering l s | Resting, _ => Resting end;
  u_super := fun _ => None; u_put := fun u _ => u;
  s_handler := fun x sh cx e =>
    match x, e with
    | Metering l s, Seen => (Returns (if Nat.leb l s then Transition Resting else Handled), Metering l (S s), sh, cx)
    | Metering l s, Broken => (Panics, Metering l (S s), sh, cx)
    | _, Begin n => (Returns (Transition (Metering n 0)), x, sh, cx)
    | _, _ => (Returns Super, x, sh, cx)
    end;
  s_entry := fun x sh cx => (Returns tt, x, sh, cx);
  s_exit := fun x sh cx => (Returns tt, x, sh, cx);
  u_handler := fun u sh cx e =>
    match u, e with
    | Session l s, Batch n => (Returns Handled, Session l (s + n), sh, cx)
    | _, _ => (Returns Super, u, sh, cx)
    end;
  u_entry := fun u sh cx => match u with Session l s => (Returns tt, Session l (S s), sh, cx) end;
  u_exit := fun u sh cx => (Returns tt, u, sh, cx);
  h_before_dispatch := fun sh _ _ => (Returns tt, sh); h_after_dispatch := fun sh _ _ => (Returns tt, sh);
  h_before_transition := fun sh _ _ => (Returns tt, sh); h_after_transition := fun sh _ _ => (Returns tt, sh)
|}.
Definition meter_tree : hierarchy := {|
  leaf_parent := fun s => match s with 0 => Some 0 | _ => None end; sup_parent := fun _ => None |}.
Definition goes_on (n n' : node meter_state meter_super) : Prop :=
  match n, n' with
  | NState (Metering l s), NState (Metering l' s') => l' = l /\ s <= s'
  | NState Resting, NState Resting => True
  | NSuper (Session l s), NSuper (Session l' s') => l' = l /\ s <= s'
  | _, _ => False
  end.
Lemma meter_well_formed : well_formed meter_tree meter 1.
Proof.
  constructor.
  - constructor; try reflexivity; try (intros []; reflexivity).
    intros [l s|] v [l' s'] H ?; cbn in *; [reflexivity|discriminate].
  - constructor; cbn.
    + intros [l s|] sh cx [] r x' sh' cx' [= <- <- <- <-]; reflexivity.
    + intros x sh cx r x' sh' cx' [= <- <- <- <-]; reflexivity.
    + intros x sh cx r x' sh' cx' [= <- <- <- <-]; reflexivity.
    + reflexivity.
    + reflexivity.
    + reflexivity.
  - intros u. exists [u]. split; [constructor; constructor|cbn; lia].
Qed.
Lemma meter_views : faithful_views meter.
Proof.
  constructor; cbn; try discriminate.
  - intros [l s|] v [= <-]. reflexivity.
  - intros [l s|] v [l' s'] [= <-] _. reflexivity.
  - intros [l s|] v [l1 s1] [l2 s2] [= <-] _ _. reflexivity.
Qed.
Lemma meter_lasting : lasting meter goes_on.
Proof.
  constructor.
  - intros [[l s|]|[l s]]; cbn; auto.
  - intros [[l s|]|[l s]] [[l1 s1|]|[l1 s1]] [[l2 s2|]|[l2 s2]]; cbn; intuition (try congruence; lia).
  - intros [[l s|]|[l s]] sh cx [] r n' sh' cx' E; cbn in E; injection E; intros; subst; cbn; lia || auto.
  - intros [[l s|]|[l s]] sh cx r n' sh' cx' E; cbn in E; injection E; intros; subst; cbn; lia || auto.
  - intros [[l s|]|[l s]] sh cx r n' sh' cx' E; cbn in E; injection E; intros; subst; cbn; lia || auto.
  - intros [l s|] [l1 s1] [l2 s2] [= <- <-] _ H. exact H.
  - intros u v v' [=].
Qed.

(** So, for all events: if the last `begin` asked for the limit [n] and all calls completed,
    the limit is [n] as long as the state is `metering`. *)
Theorem C80_meter :
  forall (md : mode) (es : list meter_event) cs (sm' : state_machine meter) n s,
    history 1 md (map (fun e => OpHandle (m := meter) e tt) es) (@new_state_machine meter tt) cs sm' ->
    completed cs -> last (targets (log_of cs)) Resting = Metering n s ->
    exists s', sm_state sm' = Metering n s' /\ s <= s'.
Proof.
  intros md es cs sm' n s H D L.
  assert (C : Forall (hands_off (m := meter)) (map (fun e => OpHandle (m := meter) e tt) es)).
  { apply Forall_forall. intros o J. apply in_map_iff in J. destruct J as (e & <- & _). exact I. }
  pose proof (proj1 (C80_history meter_tree meter 1 md goes_on _ (@new_state_machine meter tt) _ _ meter_well_formed meter_views meter_lasting C H) D) as R.
  change (sm_state (@new_state_machine meter tt)) with Resting in R. rewrite L in R.
  destruct (sm_state sm') as [l' s'|]; cbn in R; [|contradiction]. destruct R as [-> R]. eauto.
Qed.
Print Assumptions C80_meter.

(** <<
    #[state(superstate = "lit", entry_action = "enter")]
    fn on(limit: &u8, count: &mut u8) -> ..
    #[superstate]
    fn lit(limit: &u8, count: &mut u8) -> ..          (or `limit: &mut u8`)
    #[action]
    fn enter(count: &mut u8)
    #[state]
    fn off() -> ..
    >> *)
Definition by_shared_ref (name : string) (t : ty) : fn_arg :=
  Typed (PatType [] (PatIdent name) (TReference None false t)).
Definition limit_ : fn_arg := by_shared_ref "limit" (named_type "u8").
Definition count_ : fn_arg := by_ref "count" (named_type "u8").
Definition on_ : impl_fn :=
  method [with_args "state" [set_to "superstate" "lit"; set_to "entry_action" "enter"]] "on" [limit_; count_].
Definition lit_ (limit : fn_arg) : impl_fn := method [MetaPath ["superstate"]] "lit" [limit; count_].
Definition enter_ : impl_fn := method [MetaPath ["action"]] "enter" [count_].
Definition off_ : impl_fn := method [MetaPath ["state"]] "off" [].
Definition lamp (limit : fn_arg) : item_impl := impl_of [on_; off_; lit_ limit; enter_].
Definition lamp_args : list meta := [set_to "initial" "State::off()"].
Definition writable (p : fn_arg) : bool :=
  match p with Typed (PatType _ _ (TReference _ false _)) => false | _ => true end.
Fixpoint write_args (ps : list fn_arg) (as_ : list barg) : list barg :=
  match ps, as_ with
  | p :: ps, a :: as_ => (if writable p then bump a else a) :: write_args ps as_
  | _, _ => as_
  end.
Definition inputs_of (item : item_impl) (f : ident) : list fn_arg :=
  match find (fun m => (m_name m =? f)%string) (methods item) with Some m => m_inputs m | None => [] end.
Lemma write_args_ok ps : forall as_, keeps_shared ps as_ (write_args ps as_).
Proof.
  induction ps as [|p ps IH]; intros as_.
  - split; [|intros [|i] ? ? ? ? [=]]. cbn. induction as_ as [|[]]; constructor; cbn; auto.
  - destruct as_ as [|a as_]; [split; [constructor|intros i; now rewrite !nth_error_nil || (destruct i; reflexivity)]|].
    destruct (IH as_) as [I1 I2]. split.
    + cbn [write_args]. constructor; [|exact I1]. destruct (writable p), a; cbn; auto.
    + intros [|i] attrs pat l t; cbn [nth_error write_args].
      * intros [= ->]. reflexivity.
      * apply I2.
Qed.
Definition lamp_bodies (item : item_impl) (g : generated) (on off : value nat (g_state_variants g)) : bodies nat nat nat nat g := {|
  b_handler := fun f args => (Returns (if (f =? "off")%string then Transition on
                                       else if (f =? "on")%string then Super else Handled),
                              write_args (inputs_of item f) args);
  b_action := fun f args => (Returns tt, write_args (inputs_of item f) args);
  b_dispatch_hook := fun p sh n e => (Returns tt, sh);
  b_transition_hook := fun p sh a b => (Returns tt, sh);
  b_async := fun p => false;
  b_initial := fun e => off
|}.
Definition fixed_lamp : item_impl := lamp limit_.
Definition open_lamp : item_impl := lamp (by_ref "limit" (named_type "u8")).
Definition fixed_code : generated := Eval vm_compute in output (expand all_forward lamp_args fixed_lamp).
Definition open_code : generated := Eval vm_compute in output (expand all_forward lamp_args open_lamp).
Definition fixed_on : value nat (g_state_variants fixed_code) := Value (g_state_variants fixed_code) "On" [5; 0] eq_refl.
Definition fixed_off : value nat (g_state_variants fixed_code) := Value (g_state_variants fixed_code) "Off" [] eq_refl.
Definition open_on : value nat (g_state_variants open_code) := Value (g_state_variants open_code) "On" [5; 0] eq_refl.
Definition open_off : value nat (g_state_variants open_code) := Value (g_state_variants open_code) "Off" [] eq_refl.
Definition fixed_bodies := lamp_bodies fixed_lamp fixed_code fixed_on fixed_off.
Definition open_bodies := lamp_bodies open_lamp open_code open_on open_off.
Lemma lamp_inputs m limit : In m (methods (lamp limit)) -> inputs_of (lamp limit) (m_name m) = m_inputs m.
Proof. intros I. cbn in I. repeat (destruct I as [<-|I]; [reflexivity|]). destruct I. Qed.
Lemma lamp_borrow_checked limit g on off : borrow_checked (lamp limit) (lamp_bodies (lamp limit) g on off).
Proof.
  constructor; intros m as_ r left I K; cbn; intros [= <- <-]; rewrite (lamp_inputs m limit I); apply write_args_ok.
Qed.
Lemma fixed_read_only : read_only fixed_lamp "limit" on_.
Proof.
  split; [split|].
  - intros attrs t [J|[J|[]]]; injection J; intros; subst; try discriminate; eauto.
  - intros which a [->| ->] D I K attrs t J; cbn in I;
      repeat (destruct I as [<-|I]; [vm_compute in D; try discriminate; vm_compute in K; try discriminate|]); try destruct I;
      destruct J as [J|[]]; injection J; intros; discriminate.
  - intros mu I K _. cbn in I.
    repeat (destruct I as [<-|I]; [vm_compute in K; try discriminate|]); [|destruct I]. split.
    + intros attrs t [J|[J|[]]]; injection J; intros; subst; try discriminate; eauto.
    + intros which a [->| ->] D; vm_compute in D; discriminate.
Qed.
Lemma open_not_read_only : ~ read_only open_lamp "limit" on_.
Proof.
  intros [_ H]. destruct (H (lit_ (by_ref "limit" (named_type "u8")))) as [H' _].
  - cbn. auto.
  - reflexivity.
  - exists "lit". split; [vm_compute; reflexivity|now left].
  - destruct (H' [] (TReference None true (named_type "u8"))) as (l & t & [=]). cbn. now left.
Qed.

(** With the shared reference the theorem applies, and the limit stays although both the state
    and the superstate write whatever they can.  If the superstate takes `limit: &mut u8`, it
    does not apply, and the limit changes.  And in the meter: a panicking call keeps the
    limit too. *)
Example C80_case :
  (expand all_forward lamp_args fixed_lamp = Done fixed_code /\ compiles fixed_code /\ hygienic fixed_lamp fixed_code /\
   acyclic fixed_lamp /\ borrow_checked fixed_lamp fixed_bodies /\ read_only fixed_lamp "limit" on_ /\ ~ read_only open_lamp "limit" on_) /\
  (let run (g : generated) (B : bodies nat nat nat nat g) n :=
     let r := exec_all 1 BlockingMode (repeat (OpHandle (m := generated_machine B) 0 0) n) (@new_state_machine (generated_machine B) 0) in
     (tag (sm_state (snd r)), get_field (sm_state (snd r)) "limit", get_field (sm_state (snd r)) "count") in
   run fixed_code fixed_bodies 1 = ("On", Some 5, Some 10) /\
   run fixed_code fixed_bodies 3 = ("On", Some 5, Some 50) /\
   run open_code open_bodies 1 = ("On", Some 5, Some 10) /\
   run open_code open_bodies 3 = ("On", Some 25, Some 50)) /\
  (let r := exec_all 1 AwaitableMode (map (fun e => OpHandle (m := meter) e tt) [Begin 8; Seen; Batch 3; Broken]) (@new_state_machine meter tt) in
   map c_out (fst r) = [Ret tt; Ret tt; Ret tt; Abort Panicked] /\ sm_state (snd r) = Metering 8 6).
Proof.
  cbv zeta. repeat match goal with |- _ /\ _ => split end; try (vm_compute; reflexivity).
  - apply compilesb_ok. vm_compute. reflexivity.
  - apply hygienicb_ok. vm_compute. reflexivity.
  - exists (fun _ => 0). intros m u I K D. cbn in I.
    repeat (destruct I as [<-|I]; [vm_compute in K; try discriminate; vm_compute in D; discriminate|]). destruct I.
  - apply lamp_borrow_checked.
  - exact fixed_read_only.
  - exact open_not_read_only.
Qed.
