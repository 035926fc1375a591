(** Props25.v — C76: generated machines respect the types of their storage.  Theorems only; see
    MacroTypedSpec.v ([types_fit], [well_typed], [suits], [sound], [agree]). *)

From Coq Require Import String List Bool Arith Lia.
From Verif Require Import Machine Api Spec Sim.
From Verif Require Import MacroSyntax MacroVisit MacroAnalyze MacroLower MacroGen MacroSem MacroSpec MacroExamples.
From Verif Require Import MacroTypedSpec.
From Verif Require MacroBehaviour MacroMachineProofs MacroStorageProofs MacroLowerProofs MacroTypedProofs Props8.
Import ListNotations.
Open Scope string_scope.
Open Scope list_scope.

(** C76.  If the types of the impl block fit together and the user's methods are well typed,
    then in every history of events every state and superstate a callback is called on, every
    target of a transition and the final state hold values of the declared types — whatever
    "having a type" means. *)
Theorem C76_well_typed :
  forall (o : orders) (args : list meta) (item : item_impl) (g : generated),
    expand o args item = Done g -> compiles g -> hygienic item g ->
    types_fit item (g_event_ident g) (g_context_ident g) ->
    forall (Val Sh Ev Cx : Type) (has : ty -> Val -> Prop) (B : bodies Val Sh Ev Cx g),
      sound item (g_event_ident g) (g_context_ident g) has B ->
      forall (stack : nat) (md : mode) (sh : Sh) (evs : list (Ev * Cx)),
        let r := sm_handles stack md (@new_state_machine (generated_machine B) sh) evs in
        @well_typed item (g_event_ident g) (g_context_ident g) Val has "state" (g_state_variants g)
          (sm_state (fst r)) /\
        Forall (fun c => Forall (entry_typed item B has) (c_tr c)) (snd r).
Proof.
  intros o args item g E CO HY TF Val Sh Ev Cx has B SO stack md sh evs.
  destruct (MacroBehaviour.expand_compiles o args item E CO) as [ND [c [sms [ums X]]]].
  assert (AG : agree item (g_event_ident g) (g_context_ident g) has B B) by (constructor; reflexivity).
  pose proof (@MacroTypedProofs.typed_handles Val Sh Ev Cx args item g c sms ums X CO HY TF has B B SO AG
                stack md sh evs) as [(W & _) F].
  cbn zeta in *. split; [exact (proj2 W)|].
  exact (proj1 (@MacroTypedProofs.typed_all Val Sh Ev Cx item g has B B _ _ F)).
Qed.
Print Assumptions C76_well_typed.

(** What a method does when it is called with values that do not have the types of its
    parameters does not matter: it is never called so.  Two programs that agree on all
    well-typed calls return, panic or suspend alike, call the same functions in the same order
    with the same values, and are in the same state. *)
Theorem C76_calls :
  forall (o : orders) (args : list meta) (item : item_impl) (g : generated),
    expand o args item = Done g -> compiles g -> hygienic item g ->
    types_fit item (g_event_ident g) (g_context_ident g) ->
    forall (Val Sh Ev Cx : Type) (has : ty -> Val -> Prop) (B B' : bodies Val Sh Ev Cx g),
      sound item (g_event_ident g) (g_context_ident g) has B ->
      agree item (g_event_ident g) (g_context_ident g) has B B' ->
      forall (stack : nat) (md : mode) (sh : Sh) (evs : list (Ev * Cx)),
        let a := sm_handles stack md (@new_state_machine (generated_machine B) sh) evs in
        let b := sm_handles stack md (@new_state_machine (generated_machine B') sh) evs in
        sm_state (fst a) = sm_state (fst b) /\ sm_shared (fst a) = sm_shared (fst b) /\
        initialized (fst a) = initialized (fst b) /\
        Forall2 (called_rel (equal_relations B B')) (snd a) (snd b).
Proof.
  intros o args item g E CO HY TF Val Sh Ev Cx has B B' SO AG stack md sh evs.
  destruct (MacroBehaviour.expand_compiles o args item E CO) as [ND [c [sms [ums X]]]].
  pose proof (@MacroTypedProofs.typed_handles Val Sh Ev Cx args item g c sms ums X CO HY TF has B B' SO AG
                stack md sh evs) as [(W & S & I) F].
  cbn zeta in *. split; [exact (proj1 W)|]. split; [exact S|]. split; [exact I|].
  exact (proj2 (@MacroTypedProofs.typed_all Val Sh Ev Cx item g has B B' _ _ F)).
Qed.
Print Assumptions C76_calls.

(** The constructor functions build well-typed states from arguments of the types of their
    parameters, if defaults and default expressions have the types of the fields. *)
Theorem C76_constructors :
  forall (o : orders) (args : list meta) (item : item_impl) (g : generated) (Val : Type) (has : ty -> Val -> Prop)
         (eval : expr -> (ident -> option Val) -> Val) (default : ty -> Val)
         (m : impl_fn) (v : variant) (actuals : list Val),
    expand o args item = Done g -> compiles g ->
    In m (methods item) -> length (filter (fun a => is_ident (meta_path a) "state") (m_attrs m)) = 1 ->
    In v (g_state_variants g) -> v_name v = variant_of m ->
    let initially f := initial_value_of (g_event_ident g) (g_context_ident g) m (f_name f) in
    let taken := filter (fun f => by_argument (initially f)) (v_fields v) in
    let env i := hm_get i (combine (map f_name taken) actuals) in
    Forall2 (fun f w => has (f_ty f) w) taken actuals ->
    (forall f, In f (v_fields v) -> initially f = DefaultOfType -> has (f_ty f) (default (f_ty f))) ->
    (forall f e, In f (v_fields v) -> initially f = ByExpression e -> has (f_ty f) (eval e env)) ->
    exists x, construct g eval default (m_name m) actuals = Some x /\
      well_typed item (g_event_ident g) (g_context_ident g) has "state" x.
Proof.
  intros o args item g Val has eval default m v actuals E CO I L J V initially taken env FA FD FE.
  destruct (Props8.C33_constructors o args item g Val eval default m v actuals E CO I L J V) as [_ H].
  destruct H as (x & CX & TX & HA & HD & HE).
  { assert (Q : length taken = length actuals) by (clear - FA; induction FA; cbn; congruence). now symmetry. }
  exists x. split; [exact CX|].
  destruct (MacroBehaviour.expand_compiles o args item E CO) as [ND [c [sms [ums X]]]].
  intros m' f t w I' K' T' KE G.
  assert (MS : In m' sms) by (apply (MacroMachineProofs.in_sms X); auto).
  destruct KE as [[_ ST]|[[=] _]].
  assert (VN : v_name v = MacroMachineProofs.vname m').
  { rewrite MacroBehaviour.vname_variant. congruence. }
  apply (proj1 (@MacroStorageProofs.state_storage args item g c sms ums X CO m' v MS J VN)) in ST.
  destruct (initially (Field f t)) as [| |e] eqn:IV.
  - assert (IT : In (Field f t) taken) by (apply filter_In; rewrite IV; auto).
    destruct (In_nth_error _ _ IT) as [n En].
    pose proof (HA n _ En) as HG. cbn in HG. rewrite G in HG.
    clear - FA En HG. revert n En HG. induction FA as [|a b l r H _ IH]; intros [|n] En HG; cbn in *; try discriminate.
    + injection En as ->. injection HG as ->. exact H.
    + eauto.
  - rewrite (HD _ ST IV : get_field x f = _) in G. injection G as <-. exact (FD _ ST IV).
  - rewrite (HE _ e ST IV : get_field x f = _) in G. injection G as <-. exact (FE _ e ST IV).
Qed.
Print Assumptions C76_constructors.

(** A machine all of this applies to: `led: bool`, `count: u8`, `extra: u8`. *)
Definition number_type (t : ty) (n : nat) : Prop :=
  match t with
  | TPath [s] _ => if (s =? "bool")%string then n < 2 else if (s =? "u8")%string then n < 256 else True
  | _ => True
  end.
Definition flip (a : arg nat nat nat nat) : arg nat nat nat nat :=
  match a with AShared n => AShared (S n) | AField n => AField (1 - n) | _ => a end.
Definition flip_bodies (strict : bool) : bodies nat nat nat nat blinky_code := {|
  b_handler := fun f args =>
    if (strict && existsb (fun a : arg nat nat nat nat => match a with AField n => Nat.leb 256 n | _ => false end) args)%bool
    then (Panics, args)
    else (Returns (if (f =? "top")%string
                   then Transition (a_value blinky_code "NotBlinking" [7] first_state)
                   else Super), map flip args);
  b_action := fun f args => (Returns tt, map flip args);
  b_dispatch_hook := fun p sh n e => (Returns tt, sh);
  b_transition_hook := fun p sh a b => (Returns tt, 1000 + sh);
  b_async := fun p => false;
  b_initial := fun e => first_state
|}.
Ltac kept :=
  first [left; split; [reflexivity|]|right; split; [reflexivity|]; do 2 eexists];
  right; split; [cbn; auto|cbn; tauto].
Ltac each H tac :=
  match type of H with
  | False => destruct H
  | _ \/ _ => destruct H as [H|H]; [tac|each H tac]
  end.
Ltac parameter J :=
  first [discriminate J
        |injection J as <- <- <-; first [congruence|do 3 eexists; split; [reflexivity|]; kept]].
Lemma blinky_fits : types_fit blinky "event" "context".
Proof.
  constructor.
  - intros kind m [->| ->] I K; cbn in I;
      each I ltac:(subst m; first [discriminate K|
        let J := fresh in intros attrs f t J N1 N2; cbn in J; each J ltac:(parameter J)]).
  - intros kind m which a [->| ->] I K W D Ia Ka; cbn in I;
      each I ltac:(subst m; first [discriminate K|
        destruct W as [->| ->]; (first [discriminate D|
        cbn in Ia; each Ia ltac:(subst a; first [discriminate D|
        let J := fresh in intros attrs f t J N1 N2; cbn in J; each J ltac:(parameter J)])])]).
  - intros kind m mu [->| ->] I K D Iu Ku f t KE; cbn in I;
      each I ltac:(subst m; first [discriminate K|discriminate D|
        cbn in Iu; each Iu ltac:(subst mu; first [discriminate D|
          destruct KE as [[[=] _]|[_ (l & mut & [(b & aft & E & _)|[J _]])]];
          [cbn in E; destruct b; discriminate E|
           cbn in J; each J ltac:(injection J as <- <- <- <-; kept)]])]).
  - intros m f t I K S; cbn in I;
      each I ltac:(subst m; first [discriminate K|
        destruct S as [(b & aft & E & _)|[J _]]; [cbn in E; destruct b; discriminate E|
          cbn in J; each J ltac:(injection J as <- <-; eauto)]]).
Qed.
Lemma flip_typed p a : suits "event" "context" number_type p a -> suits "event" "context" number_type p (flip a).
Proof.
  intros [sh|pt e P|pt c P|attrs f l mu t v N1 N2 H]; cbn [flip]; try (constructor; assumption).
  constructor; auto. clear H. assert (H : 1 - v < 2) by lia. revert H. generalize (1 - v). intros n H.
  unfold number_type. destruct t as [| [|s [|]] |]; auto.
  destruct (String.eqb s "bool"); [exact H|]. destruct (String.eqb s "u8"); [lia|exact I].
Qed.
Lemma first_typed : well_typed blinky "event" "context" number_type "state" first_state.
Proof.
  intros m f t v I K T KE G. cbn in I.
  each I ltac:(subst m; first [discriminate K|discriminate T|
    destruct KE as [[_ [(b & aft & E & _)|[J _]]]|[[=] _]]; [cbn in E; destruct b; discriminate E|
      cbn in J; each J ltac:(injection J as <- <-; vm_compute in G; injection G as <-; cbn; lia)]]).
Qed.
Lemma next_typed :
  well_typed blinky "event" "context" number_type "state" (a_value blinky_code "NotBlinking" [7] first_state).
Proof.
  intros m f t v I K T KE G. cbn in I.
  each I ltac:(subst m; first [discriminate K|discriminate T|
    destruct KE as [[_ [(b & aft & E & _)|[J _]]]|[[=] _]];
      [cbn in E; destruct b as [|? [|]]; try discriminate E; injection E as <- <- <-; vm_compute in G; injection G as <-; cbn; lia
      |cbn in J; destruct J]]).
Qed.
Lemma flip_sound : sound blinky "event" "context" number_type (flip_bodies false).
Proof.
  constructor.
  - exact first_typed.
  - intros m as_ r left I F E. cbn in E. injection E as <- <-. split.
    + induction F; constructor; auto using flip_typed.
    + intros t. destruct (m_name m =? "top")%string; [|discriminate]. intros [= <-]. exact next_typed.
  - intros m as_ r left I K F E. cbn in E. injection E as <- <-. induction F; constructor; auto using flip_typed.
Qed.
Lemma flip_agree : agree blinky "event" "context" number_type (flip_bodies false) (flip_bodies true).
Proof.
  constructor; try reflexivity. intros m as_ [I _] F. cbn [b_handler flip_bodies andb].
  assert (H : existsb (fun a : arg nat nat nat nat => match a with AField n => Nat.leb 256 n | _ => false end) as_ = false);
    [|now rewrite H].
  assert (Q : forall p, In p (m_inputs m) -> forall a : arg nat nat nat nat, suits "event" "context" number_type p a ->
                match a with AField n => Nat.leb 256 n | _ => false end = false).
  { intros p J a S. destruct S as [sh|pt e P|pt c P|attrs f l mu t v N1 N2 H]; try reflexivity.
    apply Nat.leb_gt. cbn in I.
    each I ltac:(subst m; cbn in J; each J ltac:(first [discriminate J|injection J as <- <- <- <- <-; first [congruence|cbn in H; lia]])). }
  clear I. revert Q. induction F as [|p a ps as' S F IH]; intros Q; [reflexivity|]. cbn [existsb].
  rewrite (Q p (or_introl eq_refl) a S), IH; [reflexivity|]. intros q J. apply Q. now right.
Qed.

(** They differ, but not in any history; and in a history there is something to see. *)
Example C76_case :
  fst (b_handler (flip_bodies true) "led_on" [AField 300]) = Panics /\
  fst (b_handler (flip_bodies false) "led_on" [AField 300]) = Returns Super /\
  (forall stack md sh evs,
     sm_state (fst (sm_handles stack md (@new_state_machine (generated_machine (flip_bodies true)) sh) evs)) =
     sm_state (fst (sm_handles stack md (@new_state_machine (generated_machine (flip_bodies false)) sh) evs))) /\
  map (fun c => length (c_tr c))
    (snd (sm_handles 9 BlockingMode (@new_state_machine (generated_machine (flip_bodies true)) 0) [(1, 2); (3, 4)])) = [21; 4].
Proof.
  split; [reflexivity|]. split; [reflexivity|]. split.
  - intros stack md sh evs. symmetry.
    exact (proj1 (C76_calls all_forward blinky_args blinky blinky_code blinky_expands blinky_compiles blinky_hygienic
             blinky_fits nat nat nat nat number_type (flip_bodies false) (flip_bodies true) flip_sound flip_agree
             stack md sh evs)).
  - vm_compute. reflexivity.
Qed.
