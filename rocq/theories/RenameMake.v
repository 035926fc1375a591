(** RenameMake.v — the user's functions, carried over to the renamed impl block. *)

From Coq Require Import String List Bool Arith Lia Permutation.
From Verif Require Import MacroSyntax MacroVisit MacroAnalyze MacroLower MacroGen MacroSem MacroSpec.
From Verif Require Import MacroBasics MacroExpandProofs MacroLowerProofs MacroCallProofs MacroMachineProofs.
From Verif Require Import Machine Api Spec Sim RenameSpec RenameProofs RenameSim.
From Verif Require MacroBehaviour.
Import ListNotations.
Open Scope string_scope.
Open Scope list_scope.
Set Implicit Arguments.

(** The new name's method, the old name's method. *)
Definition new_method (rho : ident -> ident) (item' : item_impl) (m : impl_fn) : option impl_fn :=
  find (fun m' => (m_name m' =? rho (m_name m))%string) (methods item').
Definition old_method (rho : ident -> ident) (item : item_impl) (m' : impl_fn) : option impl_fn :=
  find (fun m => (m_name m' =? rho (m_name m))%string) (filter relevant (methods item)).
(** The value of the twin variant with the same contents. *)
Definition carry (kind : ident) (item : item_impl) (twin : impl_fn -> option impl_fn) Val (d d' : enum) (x : value Val d)
  : option (value Val d') :=
  match find (fun m => marked kind m && (variant_of m =? tag x)%string) (methods item) with
  | Some m => match twin m with Some m' => make d' (variant_of m') (vals x) | None => None end
  | None => None
  end.
(** Answers. *)
Definition rename_answer A A' (f : A -> A') (r : reply (response A)) : reply (response A') :=
  match r with
  | Returns Handled => Returns Handled
  | Returns Super => Returns Super
  | Returns (Transition a) => Returns (Transition (f a))
  | Panics => Panics
  | Cancelled => Cancelled
  end.

Section Make.
  Variables item item' : item_impl.
  Variables Val Sh Ev Cx : Type.
  Variables g g' : generated.
  Variable B : bodies Val Sh Ev Cx g.
  (** A state of the renamed enum, never used. *)
  Variable spare : value Val (g_state_variants g').
  Variable rho : ident -> ident.
  Notation state := (value Val (g_state_variants g)).
  Notation state' := (value Val (g_state_variants g')).
  Notation sup := (value Val (g_super_variants g)).
  Notation sup' := (value Val (g_super_variants g')).

  Definition new_state (x : state) : state' :=
    match carry "state" item (new_method rho item') (g_state_variants g') x with Some y => y | None => spare end.
  Definition old_state (x : state') : option state := carry "state" item' (old_method rho item) (g_state_variants g) x.
  Definition old_super (x : sup') : option sup := carry "superstate" item' (old_method rho item) (g_super_variants g) x.
  Definition old_node (n : node state' sup') : option (node state sup) :=
    match n with
    | NState x => option_map (@NState _ _) (old_state x)
    | NSuper u => option_map (@NSuper _ _) (old_super u)
    end.
  Definition old_name (n : ident) : ident :=
    match find (fun m => (n =? rho (m_name m))%string) (filter relevant (methods item)) with Some m => m_name m | None => n end.
  (** The same functions under the new names. *)
  Definition rename_bodies : bodies Val Sh Ev Cx g' := {|
    b_handler := fun n as_ => let '(r, l) := b_handler B (old_name n) as_ in (rename_answer new_state r, l);
    b_action := fun n as_ => b_action B (old_name n) as_;
    b_dispatch_hook := fun p sh n e => match old_node n with Some n => b_dispatch_hook B p sh n e | None => (Returns tt, sh) end;
    b_transition_hook := fun p sh a b =>
      match old_state a, old_state b with Some a, Some b => b_transition_hook B p sh a b | _, _ => (Returns tt, sh) end;
    b_async := b_async B;
    b_initial := fun _ => new_state (b_initial B (g_initial g))
  |}.
End Make.

Lemma find_unique A (f : A -> bool) l p : In p l -> f p = true -> (forall q, In q l -> f q = true -> q = p) -> find f l = Some p.
Proof.
  induction l as [|a l IH]; cbn; [tauto|]. intros I T U. destruct (f a) eqn:E.
  - f_equal. apply U; auto.
  - destruct I as [->|I]; [congruence|]. apply IH; auto.
Qed.
Section Two.
  Variables rho sigma : ident -> ident.
  Hypothesis PR : proper sigma.
  Variables args args' : list meta.
  Variables item item' : item_impl.
  Variables g g' : generated.
  Variables c c' : config.
  Variables sms ums sms' ums' : list impl_fn.
  Hypothesis X : expanded args item g c sms ums.
  Hypothesis X' : expanded args' item' g' c' sms' ums'.
  Hypothesis CO : compiles g.
  Hypothesis CO' : compiles g'.
  Hypothesis ND : NoDup (map m_name (methods item)).
  Hypothesis ND' : NoDup (map m_name (methods item')).
  Hypothesis RI : renamed_impl rho sigma item item'.
  Hypothesis RS : renamed_settings sigma g g'.
  Variables Val Sh Ev Cx : Type.
  Variable B : bodies Val Sh Ev Cx g.
  Notation pair := (paired_methods rho item item').
  Lemma new_method_of m m' : pair m m' -> new_method rho item' m = Some m'.
  Proof.
    intros P. apply find_unique; [apply P|rewrite (proj2 (proj2 P)); apply String.eqb_refl|].
    intros q I E. apply String.eqb_eq in E. apply (same_by_name _ _ _ ND' I (proj1 (proj2 P))). rewrite E. symmetry. apply P.
  Qed.
  Lemma old_method_of m m' : pair m m' -> old_method rho item m' = Some m.
  Proof.
    intros P. apply find_unique; [apply P|rewrite (proj2 (proj2 P)); apply String.eqb_refl|].
    intros q I E. apply String.eqb_eq in E.
    exact (@pair_injective rho sigma item item' ND' RI q m m' (conj I (conj (proj1 (proj2 P)) E)) P).
  Qed.

  Section Kind.
    Variable kind : ident.
    Variables d d' : enum.
    Variables ms ms' : list impl_fn.
    Variables pt pt' : impl_fn -> pattern.
    Hypothesis KI : In kind ["state"; "superstate"].
    Hypothesis NN : NoDup (map vname ms).
    Hypothesis NN' : NoDup (map vname ms').
    Hypothesis FO : forall m, In m ms -> fields_of d (vname m) = Some (p_fields (pt m)).
    Hypothesis FO' : forall m, In m ms' -> fields_of d' (vname m) = Some (p_fields (pt' m)).
    Hypothesis IM : forall m, In m ms <-> In m (methods item) /\ marked kind m = true.
    Hypothesis IM' : forall m, In m ms' <-> In m (methods item') /\ marked kind m = true.
    Hypothesis FS : forall m m', renamed_method rho sigma m m' -> p_fields (pt' m') = map sigma (p_fields (pt m)).
    Notation val := (value Val d).
    Notation val' := (value Val d').
    Lemma kin3 : In kind ["state"; "superstate"; "action"].
    Proof. destruct KI as [<-|[<-|[]]]; cbn; auto. Qed.

    Lemma pair_kind m m' : pair m m' -> marked kind m' = marked kind m.
    Proof. intros P. exact (@pair_marked rho sigma item item' ND' RI kind m m' P kin3). Qed.
    Lemma pair_in m m' : pair m m' -> In m ms -> In m' ms'.
    Proof.
      intros P I. apply IM in I. apply IM'. split; [apply P|]. rewrite (pair_kind P). tauto.
    Qed.
    Lemma shaped_twin m m' (vs : list Val) : pair m m' -> In m ms -> shaped d' (vname m') vs = shaped d (vname m) vs.
    Proof.
      intros P I. unfold shaped. rewrite (FO _ I), (FO' _ (pair_in P I)).
      rewrite (FS (@pair_renamed rho sigma item item' ND' RI m m' P)), map_length. reflexivity.
    Qed.
    Lemma carried_method (e : enum) (y : value Val e) m it l : In m (methods it) -> marked kind m = true -> tag y = vname m ->
      (forall m, In m l <-> In m (methods it) /\ marked kind m = true) -> NoDup (map vname l) ->
      find (fun m => marked kind m && (variant_of m =? tag y)%string) (methods it) = Some m.
    Proof.
      intros I K T IL NL. apply find_unique; [exact I|rewrite K, <- MacroBehaviour.vname_variant, T; apply String.eqb_refl|].
      intros q J. rewrite andb_true_iff, String.eqb_eq, <- MacroBehaviour.vname_variant, T. intros [Kq E].
      apply (same_by_vname l q m NL); [apply IL; auto|apply IL; auto|exact E].
    Qed.
    Lemma new_twins (x : val) : (exists m, In m ms /\ tag x = vname m) ->
      exists x', carry kind item (new_method rho item') d' x = Some x' /\ twins rho item item' kind x x'.
    Proof.
      intros (m & I & T). destruct (proj1 (IM m) I) as [Im K].
      destruct (@pair_exists rho sigma item item' RI m (@relevant_in item kind m kin3 Im K)) as (m' & P & _). unfold carry.
      rewrite (@carried_method d x m item ms Im K T IM NN), (new_method_of P).
      destruct (@make_some Val d' (variant_of m') (vals x)) as [y [E [T1 V1]]].
      { rewrite <- MacroBehaviour.vname_variant, (@shaped_twin m m' _ P I), <- T. apply shape_ok. }
      exists y. split; [exact E|]. exists m, m'. rewrite <- (MacroBehaviour.vname_variant m).
      split; [exact Im|]. split; [apply P|]. split; [apply P|]. auto.
    Qed.
    Lemma old_value (x : val) (x' : val') : twins rho item item' kind x x' -> carry kind item' (old_method rho item) d x' = Some x.
    Proof.
      intros (m & m' & I1 & I2 & IE & K & T & T' & V). rewrite <- MacroBehaviour.vname_variant in T, T'.
      assert (P : pair m m') by (split; [exact (@relevant_in item kind m kin3 I1 K)|auto]). unfold carry.
      assert (K' : marked kind m' = true) by (rewrite (pair_kind P); exact K).
      rewrite (@carried_method d' x' m' item' ms' I2 K' T' IM' NN'), (old_method_of P).
      rewrite <- MacroBehaviour.vname_variant, <- T, V.
      unfold make. destruct (bool_dec (shaped d (tag x) (vals x)) true) as [H|N]; [|destruct N; apply shape_ok].
      f_equal. destruct x as [t v s]. cbn in *. f_equal. apply Eqdep_dec.UIP_dec, bool_dec.
    Qed.
  End Kind.

  Lemma old_name_of m : In m (filter relevant (methods item)) -> old_name item rho (rho (m_name m)) = m_name m.
  Proof.
    intros I. destruct (@pair_exists rho sigma item item' RI m I) as (m' & P & _).
    pose proof (old_method_of P) as O. unfold old_method in O. rewrite (proj2 (proj2 P)) in O. unfold old_name. now rewrite O.
  Qed.

  Theorem bodies_exist : exists B' : bodies Val Sh Ev Cx g', renamed_bodies item item' rho B B'.
  Proof.
    pose proof (state_fields_of X CO) as F1. pose proof (state_fields_of X' CO') as F1'.
    pose proof (super_fields_of X CO) as F2. pose proof (super_fields_of X' CO') as F2'.
    pose proof (state_names X CO) as N1. pose proof (state_names X' CO') as N1'.
    pose proof (super_names X CO) as N2. pose proof (super_names X' CO') as N2'.
    assert (KS : In "state" ["state"; "superstate"]) by (cbn; auto).
    assert (KU : In "superstate" ["state"; "superstate"]) by (cbn; auto).
    assert (FSs := fun m m' R => @state_fs rho sigma PR args args' item item' g g' c c' sms ums sms' ums' X X' RS m m' R).
    assert (FSu := fun m m' R => @super_fs rho sigma PR args args' item item' g g' c c' sms ums sms' ums' X X' RS m m' R).
    assert (NT : forall x : value Val (g_state_variants g), exists x', carry "state" item (new_method rho item') (g_state_variants g') x = Some x' /\ twin_states item item' rho g g' x x').
    { intros x. apply (@new_twins "state" _ _ sms sms' (state_pattern c) (state_pattern c') KS N1 F1 F1' (in_sms X) (in_sms X') FSs).
      exact (state_method X x). }
    destruct (NT (b_initial B (g_initial g))) as (spare & SP & _).
    exists (@rename_bodies item item' Val Sh Ev Cx g g' B spare rho).
    assert (NW : forall x, twin_states item item' rho g g' x (@new_state item item' Val g g' spare rho x)).
    { intros x. unfold new_state. destruct (NT x) as (x' & -> & T). exact T. }
    assert (OS : forall x x', twin_states item item' rho g g' x x' -> @old_state item item' Val g g' rho x' = Some x).
    { intros x x' T. exact (@old_value "state" _ _ sms sms' KS N1' (in_sms X) (in_sms X') x x' T). }
    assert (OU : forall x x', twin_supers item item' rho g g' x x' -> @old_super item item' Val g g' rho x' = Some x).
    { intros x x' T. exact (@old_value "superstate" _ _ ums ums' KU N2' (in_ums X) (in_ums X') x x' T). }
    constructor; cbn [rename_bodies b_handler b_action b_dispatch_hook b_transition_hook b_async b_initial].
    - intros m as_ I0 M.
      assert (I : In m (filter relevant (methods item))) by (destruct M as [M|M]; [apply (@relevant_in item "state")|apply (@relevant_in item "superstate")]; cbn; auto).
      rewrite (old_name_of _ I). destruct (b_handler B (m_name m) as_) as [r l]. cbn [fst snd].
      split; [|reflexivity]. destruct r as [[| |x]| |]; cbn; constructor; constructor; apply NW.
    - intros m as_ I0 M. assert (I : In m (filter relevant (methods item))) by (apply (@relevant_in item "action"); cbn; auto).
      now rewrite (old_name_of _ I).
    - intros p sh n n' e N. inversion N as [x x' T|u u' T]; cbn [old_node]; [rewrite (OS _ _ T)|rewrite (OU _ _ T)]; reflexivity.
    - intros p sh a a' b b' Ta Tb. now rewrite (OS _ _ Ta), (OS _ _ Tb).
    - reflexivity.
    - apply NW.
  Qed.
End Two.
