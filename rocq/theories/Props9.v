(** Props9.v — C37 to C39, C47: arguments of `#[state]`, lifetimes, event and context types, generics of the generated
    enums.  Theorems only; see MacroSpec.v for the vocabulary. *)

From Coq Require Import String List Bool Arith Lia Permutation.
From Verif Require Import Machine Api Spec.
From Verif Require Import MacroSyntax MacroVisit MacroLower MacroGen MacroSem MacroSpec MacroExamples.
From Verif Require MacroLowerProofs MacroBehaviour MacroMachineProofs MacroTypeProofs MacroConfigProofs MacroArgProofs.
Import ListNotations.
Open Scope string_scope.
Open Scope list_scope.

(** C38.  Anonymous and elided lifetimes become the new one, and no other lifetime changes,
    for exactly the types in which lifetimes outside references are anonymous, references have
    an elided or a named lifetime, and there is nothing to rename below a reference.
    [_partial]: the property claims it for all types. *)
Theorem C38_renaming_partial :
  forall (new : ident) (t : ty),
    new <> "_" -> (forall l, has_lifetime l t -> l <> "'_" /\ l <> new) ->
    (renamed new t (rename_type new t) <-> easily_renamed t = true).
Proof. intros new t N P. exact (@MacroTypeProofs.rename_exact new N t P). Qed.
Print Assumptions C38_renaming_partial.

(** `Event<'static>` loses its lifetime, `&'_ T` keeps an anonymous one, and so does the inner
    reference of `&&T`. *)
Theorem C38_counterexample :
  rename_type "event" (TPath ["Event"] [PartLifetime "static"]) = TPath ["Event"] [PartLifetime "event"] /\
  rename_type "event" (TReference (Some "_") false (named_type "T")) = TReference (Some "_") false (named_type "T") /\
  rename_type "event" (TReference None false (TReference None false (named_type "T"))) =
    TReference (Some "event") false (TReference None false (named_type "T")) /\
  forall t, In t [TPath ["Event"] [PartLifetime "static"]; TReference (Some "_") false (named_type "T");
                  TReference None false (TReference None false (named_type "T"))] ->
    ~ renamed "event" t (rename_type "event" t).
Proof.
  split; [reflexivity|]. split; [reflexivity|]. split; [reflexivity|].
  intros t I R. cut (easily_renamed t = true).
  { intros E. cbn in I. repeat (destruct I as [<-|I]; [discriminate|]). destruct I. }
  apply (C38_renaming_partial "event" t); [discriminate| |exact R].
  intros l H. apply MacroTypeProofs.type_lifetimes_spec in H. cbn in I.
  destruct I as [<-|[<-|[<-|[]]]]; cbn in H; intuition congruence.
Qed.
Print Assumptions C38_counterexample.

(** The type in the repository's own test: `(Context<'_>, &T, &'static T)`. *)
Example C38_case :
  let t := TOther "tuple" [PartType (TPath ["Context"] [PartLifetime "_"]);
             PartType (TReference None false (named_type "T"));
             PartType (TReference (Some "static") false (named_type "T"))] in
  easily_renamed t = true /\
  (forall l, has_lifetime l t -> l <> "'_" /\ l <> "sub") /\
  rename_type "sub" t =
    TOther "tuple" [PartType (TPath ["Context"] [PartLifetime "sub"]);
      PartType (TReference (Some "sub") false (named_type "T"));
      PartType (TReference (Some "static") false (named_type "T"))].
Proof.
  split; [reflexivity|]. split; [|reflexivity].
  intros l H. apply MacroTypeProofs.type_lifetimes_spec in H. cbn in H.
  destruct H as [<-|[<-|[]]]; split; discriminate.
Qed.

(** C39.  The event type is that of an event parameter of a handler, without the reference
    (and with lifetimes renamed, C38), or `()` if no handler takes the event. *)
Theorem C39_event_type :
  forall (o : orders) (args : list meta) (item : item_impl) (g : generated),
    expand o args item = Done g -> NoDup (map m_name (methods item)) ->
    (exists m l mu t, is_handler item m /\ takes m (g_event_ident g) (TReference l mu t) /\
       g_event_type g = rename_type "event" t) \/
    ((forall m t, is_handler item m -> ~ takes m (g_event_ident g) t) /\ g_event_type g = unit_type).
Proof.
  intros o args item g E ND. destruct (MacroLowerProofs.expand_done o args item ND E) as [c [sms [ums X]]].
  destruct (MacroTypeProofs.expand_types o args item ND E) as [c' T].
  assert (c' = c) as ->.
  { pose proof (MacroLowerProofs.ex_config X) as Q1. pose proof (MacroTypeProofs.ty_config T) as Q2. congruence. }
  rewrite (MacroLowerProofs.ex_event_ident X). destruct (MacroTypeProofs.ty_event T) as [e [-> F]].
  destruct F as [(m & l & mu & t & I & K & ->)|[N ->]].
  - left. exists m, l, mu, t. apply filter_In in I. destruct I as [I M]. apply orb_true_iff in M.
    split; [split; [exact I|tauto]|]. split; [exact K|reflexivity].
  - right. split; [|reflexivity]. intros m t [I M]. apply N. apply filter_In. split; [exact I|].
    now apply orb_true_iff.
Qed.
Print Assumptions C39_event_type.

(** The same for the context.  (If both have the same name, it is the event's.) *)
Theorem C39_context_type :
  forall (o : orders) (args : list meta) (item : item_impl) (g : generated),
    expand o args item = Done g -> NoDup (map m_name (methods item)) ->
    (g_event_ident g <> g_context_ident g ->
     (exists m l mu t, is_handler item m /\ takes m (g_context_ident g) (TReference l mu t) /\
        g_context_type g = rename_type "context" t) \/
     ((forall m t, is_handler item m -> ~ takes m (g_context_ident g) t) /\ g_context_type g = unit_type)) /\
    (g_event_ident g = g_context_ident g -> g_context_type g = unit_type).
Proof.
  intros o args item g E ND. destruct (MacroLowerProofs.expand_done o args item ND E) as [c [sms [ums X]]].
  destruct (MacroTypeProofs.expand_types o args item ND E) as [c' T].
  assert (c' = c) as ->.
  { pose proof (MacroLowerProofs.ex_config X) as Q1. pose proof (MacroTypeProofs.ty_config T) as Q2. congruence. }
  rewrite (MacroLowerProofs.ex_event_ident X), (MacroLowerProofs.ex_context_ident X).
  destruct (MacroTypeProofs.ty_context T) as [k [-> [F S]]]. split.
  - intros D. destruct (F D) as [(m & l & mu & t & I & K & ->)|[N ->]].
    + left. exists m, l, mu, t. apply filter_In in I. destruct I as [I M]. apply orb_true_iff in M.
      split; [split; [exact I|tauto]|]. split; [exact K|reflexivity].
    + right. split; [|reflexivity]. intros m t [I M]. apply N. apply filter_In. split; [exact I|].
      now apply orb_true_iff.
  - intros D. now rewrite (S D).
Qed.
Print Assumptions C39_context_type.

(** So if the handlers agree, the iteration order does not matter. *)
Theorem C39_agreement :
  forall (o : orders) (args : list meta) (item : item_impl) (g : generated) (te tc : ty),
    expand o args item = Done g -> NoDup (map m_name (methods item)) ->
    ((exists m t, is_handler item m /\ takes m (g_event_ident g) t) ->
     (forall m l mu t, is_handler item m -> takes m (g_event_ident g) (TReference l mu t) -> t = te) ->
     g_event_type g = rename_type "event" te) /\
    (g_event_ident g <> g_context_ident g ->
     (exists m t, is_handler item m /\ takes m (g_context_ident g) t) ->
     (forall m l mu t, is_handler item m -> takes m (g_context_ident g) (TReference l mu t) -> t = tc) ->
     g_context_type g = rename_type "context" tc).
Proof.
  intros o args item g te tc E ND. split.
  - intros (m & t & H & K) A. destruct (C39_event_type o args item g E ND) as [(m' & l & mu & t' & H' & K' & ->)|[N _]].
    + now rewrite (A m' l mu t' H' K').
    + destruct (N m t H K).
  - intros D (m & t & H & K) A.
    destruct (proj1 (C39_context_type o args item g E ND) D) as [(m' & l & mu & t' & H' & K' & ->)|[N _]].
    + now rewrite (A m' l mu t' H' K').
    + destruct (N m t H K).
Qed.
Print Assumptions C39_agreement.

(** A handler that takes the event (context) other than by reference is rejected. *)
Theorem C39_by_value_rejected :
  forall (o : orders) (args : list meta) (item : item_impl) (g : generated) (m : impl_fn) (name : ident) (t : ty),
    NoDup (map m_name (methods item)) -> is_handler item m ->
    name = or_else (last_value as_ident "event_identifier" args) "event" \/
    name = or_else (last_value as_ident "context_identifier" args) "context" ->
    takes m name t -> (forall t', takes m name t' -> t' = t) -> (forall l mu e, t <> TReference l mu e) ->
    expand o args item <> Done g.
Proof.
  intros o args item g m name t ND H Nm K U NR E.
  destruct (MacroTypeProofs.expand_types o args item ND E) as [c T].
  destruct (MacroConfigProofs.config_spec args item (MacroTypeProofs.ty_config T)).
  assert (B : MacroTypeProofs.by_reference name m).
  { destruct (string_dec (or_else (last_value as_ident "event_identifier" args) "event") name) as [Q|D].
    - subst name. rewrite <- cf_event. exact (MacroTypeProofs.ty_event_reference T H).
    - destruct Nm as [Nm|Nm]; [congruence|]. rewrite Nm, <- cf_context.
      apply (MacroTypeProofs.ty_context_reference T); [|exact H]. rewrite cf_event, cf_context. congruence. }
  destruct B as [B|(l & mu & e & B)]; [exact (B t K)|]. exact (NR l mu e (eq_sym (U _ B))).
Qed.
Print Assumptions C39_by_value_rejected.

(** Parameters of actions are not looked at: here the context type is `()`, although the only
    action takes `context: &mut u8`. *)
Definition acting : item_impl :=
  impl_of [method [with_args "state" [set_to "entry_action" "enter"]] "on" [Receiver];
           method [MetaPath ["action"]] "enter" [by_ref "context" (named_type "u8")]].
Theorem C39_actions_ignored :
  exists g, expand all_forward [set_to "initial" "State::on()"] acting = Done g /\
    g_context_type g = unit_type.
Proof. eexists. split; vm_compute; reflexivity. Qed.
Print Assumptions C39_actions_ignored.

Example C39_case :
  NoDup (map m_name (methods blinky)) /\ is_handler blinky led_off /\
  takes led_off "event" (TReference None true (named_type "Event")) /\
  g_event_type blinky_code = named_type "Event" /\ g_context_type blinky_code = named_type "Context" /\
  match expand all_forward [set_to "initial" "State::on()"]
          (impl_of [method [MetaPath ["state"]] "on" [Typed (PatType [] (PatIdent "event") (named_type "Event"))]]) with
  | Rejected s => s = "event must be passed in as a reference"
  | _ => False
  end.
Proof.
  split; [apply nodupb_ok; reflexivity|]. split; [split; [cbn; auto|left; reflexivity]|].
  split; [exists []; cbn; auto|]. split; [reflexivity|]. split; vm_compute; reflexivity.
Qed.

(** C47.  The state enum declares, in the order of the impl block, the generic parameters used
    by the parameters of its handlers, except lifetimes with bounds; the superstate enum does
    the same, and has the lifetime `'sub` of its references if a superstate handler takes any
    state-local parameter.  [_partial]: the property is about the types of the fields; it is
    false of lifetimes with bounds and of types that occur in `local_storage` only. *)
Theorem C47_generics_partial :
  forall (o : orders) (args : list meta) (item : item_impl) (g : generated),
    expand o args item = Done g -> NoDup (map m_name (methods item)) ->
    let used kind p := (exists m, In m (methods item) /\ marked kind m = true /\
                          uses_generic (g_event_ident g) (g_context_ident g) m p) /\
                       match p with GLifetime _ bounds => bounds = [] | _ => True end in
    (exists keep, g_state_generics g = filter keep (g_params (i_generics item)) /\
       forall p, In p (g_params (i_generics item)) -> (keep p = true <-> used "state" p)) /\
    (exists keep borrows,
       g_super_generics g = filter keep (g_params (i_generics item)) ++
                            (if borrows : bool then [GLifetime "sub" []] else []) /\
       (forall p, In p (g_params (i_generics item)) -> (keep p = true <-> used "superstate" p)) /\
       (borrows = true <-> exists m i t, In m (methods item) /\ marked "superstate" m = true /\
          takes m i t /\ i <> g_event_ident g /\ i <> g_context_ident g)).
Proof.
  intros o args item g E ND used. destruct (MacroLowerProofs.expand_done o args item ND E) as [c [sms [ums X]]].
  destruct (MacroTypeProofs.expand_types o args item ND E) as [c' T].
  assert (c' = c) as ->.
  { pose proof (MacroLowerProofs.ex_config X) as Q1. pose proof (MacroTypeProofs.ty_config T) as Q2. congruence. }
  unfold used. rewrite (MacroLowerProofs.ex_event_ident X), (MacroLowerProofs.ex_context_ident X).
  assert (S1 : forall m, In m (methods item) -> marked "state" m = true -> MacroLowerProofs.idents_only m).
  { intros m I K. exact (proj1 (MacroLowerProofs.ex_state_methods X m (proj2 (MacroMachineProofs.in_sms X m) (conj I K)))). }
  assert (S2 : forall m, In m (methods item) -> marked "superstate" m = true -> MacroLowerProofs.idents_only m).
  { intros m I K. exact (proj1 (MacroLowerProofs.ex_super_methods X m (proj2 (MacroMachineProofs.in_ums X m) (conj I K)))). }
  assert (G : forall kind p, (forall m, In m (methods item) -> marked kind m = true -> MacroLowerProofs.idents_only m) ->
    (MacroTypeProofs.used_by c kind item p <->
     (exists m, In m (methods item) /\ marked kind m = true /\
        uses_generic (MacroAnalyze.c_event_ident c) (MacroAnalyze.c_context_ident c) m p) /\
     match p with GLifetime _ bounds => bounds = [] | _ => True end)).
  { intros kind p S. unfold MacroTypeProofs.used_by. split.
    - intros (m & pt & I & K & J & M).
      destruct (proj1 (MacroTypeProofs.uses_generic_spec c p (S m I K)) (ex_intro _ pt (conj J M))) as [U B].
      split; [exists m; auto|exact B].
    - intros [(m & I & K & U) B].
      destruct (proj2 (MacroTypeProofs.uses_generic_spec c p (S m I K)) (conj U B)) as [pt [J M]].
      exists m, pt. auto. }
  split.
  - destruct (MacroTypeProofs.ty_state_generics T) as [keep [-> K]]. exists keep. split; [reflexivity|].
    intros p I. rewrite (K p I). exact (G "state" p S1).
  - destruct (MacroTypeProofs.ty_super_generics T) as (keep & borrows & -> & K & L).
    exists keep, borrows. split; [reflexivity|]. split.
    + intros p I. rewrite (K p I). exact (G "superstate" p S2).
    + rewrite L. split.
      * intros (m & I & Km & F). apply (MacroTypeProofs.field_params_spec c (S2 m I Km)) in F.
        destruct F as (i & t & F). exists m, i, t. tauto.
      * intros (m & i & t & I & Km & F). exists m. split; [exact I|]. split; [exact Km|].
        apply (MacroTypeProofs.field_params_spec c (S2 m I Km)). eauto.
Qed.
Print Assumptions C47_generics_partial.

(** `impl<'b, 'a: 'b, T> Blinky { #[state(local_storage("x: T"))] fn on(f: &mut &'a u8) .. }`:
    the fields use `T` and `'a`, and the enum declares neither. *)
Definition generic_impl : item_impl :=
  ItemImpl (named_type "Blinky") (Generics [GLifetime "b" []; GLifetime "a" ["b"]; GType "T" []] [])
    [ItemMethod (method [with_args "state" [with_strings "local_storage" [storage_text (Field "x" (named_type "T"))]]]
       "on" [by_ref "f" (TReference (Some "a") false (named_type "u8"))])].
Theorem C47_counterexample :
  exists g, expand all_forward [set_to "initial" "State::on()"] generic_impl = Done g /\ compiles g /\
    g_state_variants g = [Variant "On" [Field "f" (TReference (Some "a") false (named_type "u8"));
                                        Field "x" (named_type "T")]] /\
    g_state_generics g = [].
Proof.
  eexists. split; [vm_compute; reflexivity|]. split; [apply compilesb_ok; vm_compute; reflexivity|].
  split; reflexivity.
Qed.
Print Assumptions C47_counterexample.

(** `impl<'a, 'b, T, const N: usize> Blinky`, with `on(f: &mut [T; N])` and
    `above(f: &mut &'a u8)`. *)
Example C47_case :
  match expand all_forward [set_to "initial" "State::on()"]
    (ItemImpl (named_type "Blinky") (Generics [GLifetime "a" []; GLifetime "b" []; GType "T" []; GConst "N"] [])
      [ItemMethod (method [MetaPath ["state"]] "on" [by_ref "f" (TOther "array" [PartType (named_type "T"); PartIdent "N"])]);
       ItemMethod (method [MetaPath ["superstate"]] "above" [by_ref "f" (TReference (Some "a") false (named_type "u8"))])]) with
  | Done g => g_state_generics g = [GType "T" []; GConst "N"] /\
              g_super_generics g = [GLifetime "a" []; GLifetime "sub" []]
  | _ => False
  end.
Proof. vm_compute. auto. Qed.

(** C37.  The known arguments of `#[state(..)]` and `#[superstate(..)]` (whose effect is that
    of C30 and C45) have to be well formed.  [_partial]: unknown ones, among them the
    documented `name`, are ignored, see below. *)
Theorem C37_well_formed_partial :
  forall (o : orders) (args : list meta) (item : item_impl) (g : generated) (m : impl_fn) (a : meta),
    expand o args item = Done g -> In m (methods item) ->
    (marked "state" m = true /\ In a (arguments_of "state" m)) \/
    (marked "superstate" m = true /\ In a (arguments_of "superstate" m)) ->
    known_argument a = true -> well_formed_argument a.
Proof. intros o args item g m a E I J K. exact (@MacroArgProofs.expand_fine o args item g E m a I J K). Qed.
Print Assumptions C37_well_formed_partial.

(** All other arguments, and argument lists that do not parse, could as well not be there:
    the macro does the same without them. *)
Theorem C37_unknown_ignored :
  forall (o : orders) (args : list meta) (item : item_impl),
    apart_from_impl (expand o args item) = apart_from_impl (expand o args (cleaned item)).
Proof. intros o args item. symmetry. exact (MacroArgProofs.expand_cleaned o args item). Qed.
Print Assumptions C37_unknown_ignored.

(** `#[state(name = "Lit", superstat = "top")] fn on(..)` and an attribute `#[state(1 2)]` that
    does not parse. *)
Definition misspelt : item_impl :=
  impl_of [method [with_args "state" [set_to "name" "Lit"; set_to "superstat" "top"]] "on" [];
           method [MetaList ["state"] (Tokens None None None)] "off" []; method [MetaPath ["superstate"]] "top" []].
Theorem C37_counterexample :
  exists g, expand all_forward [set_to "initial" "State::on()"] misspelt = Done g /\ compiles g /\
    map v_name (g_state_variants g) = ["On"; "Off"] /\
    map snd (superstate_arms (g_state_arms g)) = [None; None].
Proof.
  eexists. split; [vm_compute; reflexivity|]. split; [apply compilesb_ok; vm_compute; reflexivity|].
  split; reflexivity.
Qed.
Print Assumptions C37_counterexample.

Example C37_case :
  In (set_to "superstate" "blinking") (arguments_of "state" led_on) /\
  known_argument (set_to "superstate" "blinking") = true /\
  m_attrs (cleaned_method (method [with_args "state" [set_to "name" "Lit"; set_to "superstate" "top"]] "on" [])) =
    [with_args "state" [set_to "superstate" "top"]] /\
  match expand all_forward [set_to "initial" "State::on()"]
          (impl_of [method [with_args "state" [MetaPath ["superstate"]]] "on" []]) with
  | Rejected s => s = "expected name-value pair"
  | _ => False
  end.
Proof. split; [cbn; auto|]. split; [reflexivity|]. split; [reflexivity|]. vm_compute. reflexivity. Qed.
