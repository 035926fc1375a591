(** RenameProofs.v — lemmas for C82: renaming methods and parameters. *)

From Coq Require Import String List Bool Arith Lia Permutation.
From Verif Require Import MacroSyntax MacroVisit MacroAnalyze MacroLower MacroGen MacroSem MacroSpec.
From Verif Require Import MacroBasics MacroExpandProofs MacroLowerProofs MacroCallProofs MacroMachineProofs.
From Verif Require Import Machine Api Spec Sim RenameSpec.
From Verif Require MacroBehaviour.
Import ListNotations.
Open Scope string_scope.
Open Scope list_scope.
Set Implicit Arguments.

Section Sigma.
  Variable sigma : ident -> ident.
  Hypothesis PR : proper sigma.
  Notation inj := (proj1 PR).

  Lemma eqb_sigma i j : (sigma i =? sigma j)%string = (i =? j)%string.
  Proof.
    destruct (String.eqb_spec i j) as [->|N]; [apply String.eqb_refl|].
    apply String.eqb_neq. intros E. apply N, inj, E.
  Qed.
  Lemma position_sigma f l : position (String.eqb (sigma f)) (map sigma l) = position (String.eqb f) l.
  Proof. induction l as [|a l IH]; cbn; [reflexivity|]. now rewrite eqb_sigma, IH. Qed.
  Lemma existsb_sigma f l : existsb (String.eqb (sigma f)) (map sigma l) = existsb (String.eqb f) l.
  Proof. induction l as [|a l IH]; cbn; [reflexivity|]. now rewrite eqb_sigma, IH. Qed.

  (** ** Values *)
  Section Values.
    Variable Val : Type.
    Variables d d' : enum.
    Definition paired (fs : list ident) (x : value Val d) (x' : value Val d') : Prop :=
      fields_of d (tag x) = Some fs /\ fields_of d' (tag x') = Some (map sigma fs) /\ vals x' = vals x.
    Lemma paired_index fs x x' f : paired fs x x' -> field_index x' (sigma f) = field_index x f.
    Proof. intros (A & B & C). unfold field_index. rewrite A, B. apply position_sigma. Qed.
    Lemma paired_get fs x x' f : paired fs x x' -> get_field x' (sigma f) = get_field x f.
    Proof.
      intros P. unfold get_field. rewrite (paired_index f P). destruct P as (A & B & C). now rewrite C.
    Qed.
    Lemma paired_set fs x x' f v : paired fs x x' -> paired fs (set_field x f v) (set_field x' (sigma f) v).
    Proof.
      intros P. unfold paired. rewrite !set_field_tag. pose proof (paired_index f P) as I. destruct P as (A & B & C).
      split; [exact A|]. split; [exact B|]. unfold set_field. rewrite I. destruct (field_index x f) as [i|]; [|exact C].
      rewrite C. rewrite (proj2 (@with_vals_ok _ _ x (set_nth i v (vals x)) (@set_nth_length _ _ _ _))).
      apply with_vals_ok. rewrite set_nth_length. now rewrite C.
    Qed.
  End Values.

  (** ** Calls *)
  Section Calls.
    Variables Val Sh Ev Cx : Type.
    Variables g g' : generated.
    Hypothesis RS : renamed_settings sigma g g'.
    Variables d d' : enum.
    Variable fs : list ident.

    Definition slot_sigma (s : slot) : slot := match s with SField f => SField (sigma f) | s => s end.
    Lemma resolve_sigma b i : resolve g' (map sigma fs) b (sigma i) = option_map slot_sigma (resolve g fs b i).
    Proof.
      unfold resolve. rewrite existsb_sigma, (rs_event RS), (rs_context RS), !eqb_sigma.
      replace (sigma i =? "shared_storage")%string with (i =? "shared_storage")%string
        by (rewrite <- (proj2 PR) at 2; now rewrite eqb_sigma).
      destruct (existsb (String.eqb i) fs); [reflexivity|]. destruct (i =? "shared_storage")%string; [reflexivity|].
      destruct (b && (i =? g_event_ident g)%string)%bool; [reflexivity|].
      destruct (i =? g_context_ident g)%string; reflexivity.
    Qed.
    Notation arg' := (arg Val Sh Ev Cx).
    Definition stores (s : store Val Sh Cx d) (s' : store Val Sh Cx d') : Prop :=
      paired fs (fst (fst s)) (fst (fst s')) /\ snd (fst s) = snd (fst s') /\ snd s = snd s'.
    Lemma read_sigma s s' (e : option Ev) sl : stores s s' -> read s' e (slot_sigma sl) = read s e sl.
    Proof.
      destruct s as [[x sh] cx], s' as [[x' sh'] cx']. intros (P & A & B). cbn in *. subst sh' cx'.
      destruct sl; cbn; [|reflexivity..]. now rewrite (paired_get f P).
    Qed.
    Lemma write_sigma s s' sl (a : arg') : stores s s' -> stores (write s sl a) (write s' (slot_sigma sl) a).
    Proof.
      destruct s as [[x sh] cx], s' as [[x' sh'] cx']. intros (P & A & B). cbn in *. subst sh' cx'.
      destruct sl, a; cbn; repeat split; cbn; auto; try apply P.
      - rewrite set_field_tag. apply P.
      - rewrite set_field_tag. apply P.
      - apply (paired_set f v P).
    Qed.
    Lemma write_all_sigma sls : forall s s' (l : list arg'), stores s s' ->
      stores (write_all s sls l) (write_all s' (map slot_sigma sls) l).
    Proof.
      induction sls as [|sl sls IH]; intros s s' [|a l] S; cbn; auto. apply IH. now apply write_sigma.
    Qed.
    Lemma all_some_sigma b l :
      all_some (map (resolve g' (map sigma fs) b) (map sigma l)) = option_map (map slot_sigma) (all_some (map (resolve g fs b) l)).
    Proof.
      induction l as [|i l IH]; cbn; [reflexivity|]. rewrite resolve_sigma.
      destruct (resolve g fs b i); cbn; [|reflexivity]. rewrite IH. destruct (all_some (map (resolve g fs b) l)); reflexivity.
    Qed.
    Lemma reads_sigma s s' (e : option Ev) sls : stores s s' -> map (read s' e) (map slot_sigma sls) = map (read s e) sls.
    Proof. intros S. rewrite map_map. apply map_ext. intros sl. now apply read_sigma. Qed.

    Lemma run_call_sigma A A' (RA : A -> A' -> Prop) run run' (e : option Ev) f f' l (s : store Val Sh Cx d) (s' : store Val Sh Cx d') :
      (forall as_ : list arg', reply_rel RA (fst (run f as_)) (fst (run' f' as_)) /\ snd (run' f' as_) = snd (run f as_)) ->
      stores s s' ->
      reply_rel RA (fst (run_call g run fs e f l s)) (fst (run_call g' run' (map sigma fs) e f' (map sigma l) s')) /\
      stores (snd (run_call g run fs e f l s)) (snd (run_call g' run' (map sigma fs) e f' (map sigma l) s')).
    Proof.
      intros H S. unfold run_call. rewrite all_some_sigma.
      destruct (all_some (map (resolve g fs _) l)) as [sls|]; cbn [option_map]; [|split; [constructor|exact S]].
      rewrite (reads_sigma e sls S). destruct (all_some (map (read s e) sls)) as [as_|]; [|split; [constructor|exact S]].
      specialize (H as_). destruct (run f as_) as [r left], (run' f' as_) as [r' left']. cbn in H. destruct H as [H ->].
      cbn. split; [exact H|]. now apply write_all_sigma.
    Qed.

    (** *** Views *)
    Variable fu : list ident.
    Lemma put_sigma (x : value Val d) (x' : value Val d') v v' :
      paired fs x x' -> paired fu (d := g_super_variants g) (d' := g_super_variants g') v v' ->
      paired fs (put_back g x v) (put_back g' x' v').
    Proof.
      intros P Q. unfold put_back. destruct (Q) as (A & B & C). rewrite A, B. clear A B C.
      revert x x' P. generalize fu as l. induction l as [|f l IH]; intros x x' P; cbn; [exact P|].
      apply IH. rewrite (paired_get f Q). destruct (get_field v f) as [w|]; [|exact P]. apply (paired_set f w P).
    Qed.
    Lemma view_sigma (x : value Val d) (x' : value Val d') n n' :
      paired fs x x' -> fields_of (g_super_variants g) n = Some fu -> fields_of (g_super_variants g') n' = Some (map sigma fu) ->
      match match all_some (map (get_field x) fu) with Some vs => make (g_super_variants g) n vs | None => None end,
            match all_some (map (get_field x') (map sigma fu)) with Some vs => make (g_super_variants g') n' vs | None => None end with
      | Some v, Some v' => tag v = n /\ tag v' = n' /\ vals v' = vals v
      | None, None => True
      | _, _ => False
      end.
    Proof.
      intros P A B.
      assert (map (get_field x') (map sigma fu) = map (get_field x) fu) as ->.
      { rewrite map_map. apply map_ext. intros f. apply (paired_get f P). }
      destruct (all_some (map (get_field x) fu)) as [vs|] eqn:E; [|exact I].
      apply all_some_length in E. rewrite map_length in E.
      destruct (@make_some Val (g_super_variants g) n vs) as [v [-> [T V]]].
      { unfold shaped. rewrite A. apply Nat.eqb_eq. auto. }
      destruct (@make_some Val (g_super_variants g') n' vs) as [v' [-> [T' V']]].
      { unfold shaped. rewrite B, map_length. apply Nat.eqb_eq. auto. }
      repeat split; congruence.
    Qed.
  End Calls.
End Sigma.

(** ** Lists *)
Lemma combine_functional A B (l : list A) (r : list B) a b b' : NoDup l ->
  In (a, b) (combine l r) -> In (a, b') (combine l r) -> b = b'.
Proof.
  intros N. revert r. induction N as [|x l NI N IH]; intros [|y r]; cbn; try tauto.
  intros [E|I] [E'|I']; try congruence.
  - injection E as -> ->. apply in_combine_l in I'. contradiction.
  - injection E' as -> ->. apply in_combine_l in I. contradiction.
  - exact (IH _ I I').
Qed.
Lemma combine_injective A B (l : list A) (r : list B) a a' b : NoDup r ->
  In (a, b) (combine l r) -> In (a', b) (combine l r) -> a = a'.
Proof.
  intros N. revert l. induction N as [|x r NI N IH]; intros [|y l]; cbn; try tauto.
  intros [E|I] [E'|I']; try congruence.
  - injection E as -> ->. apply in_combine_r in I'. contradiction.
  - injection E' as -> ->. apply in_combine_r in I. contradiction.
  - exact (IH _ I I').
Qed.
Lemma Forall2_combine A B (R : A -> B -> Prop) l r a b : Forall2 R l r -> In (a, b) (combine l r) -> R a b.
Proof.
  intros F. induction F as [|x y l r H F IH]; cbn; [tauto|]. intros [[= <- <-]|I]; auto.
Qed.
Lemma combine_left A B (R : A -> B -> Prop) l r a : Forall2 R l r -> In a l -> exists b, In (a, b) (combine l r).
Proof.
  intros F. induction F as [|x y l r H F IH]; cbn; [tauto|]. intros [<-|I]; [eauto|]. destruct (IH I) as [b J]. eauto.
Qed.
Lemma combine_right A B (R : A -> B -> Prop) l r b : Forall2 R l r -> In b r -> exists a, In (a, b) (combine l r).
Proof.
  intros F. induction F as [|x y l r H F IH]; cbn; [tauto|]. intros [<-|I]; [eauto|]. destruct (IH I) as [a J]. eauto.
Qed.
Lemma same_by_name (l : list impl_fn) m m' : NoDup (map m_name l) -> In m l -> In m' l -> m_name m = m_name m' -> m = m'.
Proof.
  induction l as [|a l IH]; cbn; [tauto|]. intros N. inversion N as [|? ? N1 N2]; subst.
  intros [->|I] [->|J] E; auto; exfalso; apply N1; [rewrite E|rewrite <- E]; now apply in_map.
Qed.
Lemma same_by_vname (l : list impl_fn) m m' : NoDup (map vname l) -> In m l -> In m' l -> vname m = vname m' -> m = m'.
Proof.
  induction l as [|a l IH]; cbn; [tauto|]. intros N. inversion N as [|? ? N1 N2]; subst.
  intros [->|I] [->|J] E; auto; exfalso; apply N1; [rewrite E|rewrite <- E]; now apply in_map.
Qed.

(** ** Names of fields *)
Section Fields.
  Variables rho sigma : ident -> ident.
  Hypothesis PR : proper sigma.
  Variables c c' : config.
  Hypothesis CE : c_event_ident c' = sigma (c_event_ident c).
  Hypothesis CC : c_context_ident c' = sigma (c_context_ident c).

  Fixpoint add_name (l : list ident) (n : ident) : list ident :=
    match l with
    | [] => [n]
    | a :: l' => if (a =? n)%string then n :: l' else a :: add_name l' n
    end.
  Lemma add_field_name fs f : map f_name (add_field fs f) = add_name (map f_name fs) (f_name f).
  Proof.
    induction fs as [|a fs IH]; cbn; [reflexivity|]. destruct (f_name a =? f_name f)%string; cbn; [reflexivity|]. now rewrite IH.
  Qed.
  Lemma add_fields_name st : forall fs, map f_name (fold_left add_field st fs) = fold_left add_name (map f_name st) (map f_name fs).
  Proof. induction st as [|f st IH]; intros fs; cbn; [reflexivity|]. now rewrite IH, add_field_name. Qed.
  Lemma add_name_sigma l n : add_name (map sigma l) (sigma n) = map sigma (add_name l n).
  Proof.
    induction l as [|a l IH]; cbn; [reflexivity|]. rewrite (eqb_sigma PR). destruct (a =? n)%string; cbn; [reflexivity|]. now rewrite IH.
  Qed.
  Lemma add_names_sigma st : forall l, fold_left add_name (map sigma st) (map sigma l) = map sigma (fold_left add_name st l).
  Proof. induction st as [|f st IH]; intros l; cbn; [reflexivity|]. now rewrite add_name_sigma, IH. Qed.
  Lemma params_sigma m m' : renamed_method rho sigma m m' ->
    map pat_name (field_params c' m') = map sigma (map pat_name (field_params c m)).
  Proof.
    intros R. pose proof (rn_inputs R) as F. unfold field_params. induction F as [|p p' l l' P F IH]; cbn; [reflexivity|].
    rewrite !map_app, IH. f_equal. destruct p as [|pt], p' as [|pt']; cbn in P; try contradiction; [reflexivity|].
    destruct P as (i & P1 & P2). cbn. rewrite P1, P2, CE, CC, !(eqb_sigma PR).
    destruct (c_event_ident c =? i)%string; [reflexivity|]. destruct (c_context_ident c =? i)%string; [reflexivity|].
    cbn. unfold pat_name. now rewrite P1, P2.
  Qed.
  Lemma state_fields_sigma m m' : renamed_method rho sigma m m' ->
    map f_name (state_fields c' m') = map sigma (map f_name (state_fields c m)).
  Proof.
    intros R. unfold state_fields. rewrite !add_fields_name, !(rn_storage R) by (cbn; auto).
    rewrite !(map_map state_field_of f_name). cbn [state_field_of f_name].
    rewrite <- add_names_sigma. f_equal. apply (params_sigma R).
  Qed.
  Lemma super_fields_sigma m m' : renamed_method rho sigma m m' ->
    map f_name (super_fields c' m') = map sigma (map f_name (super_fields c m)).
  Proof.
    intros R. unfold super_fields. rewrite !add_fields_name, !(rn_storage R) by (cbn; auto).
    rewrite !(map_map super_field_of f_name). cbn [super_field_of f_name].
    rewrite <- add_names_sigma. f_equal. apply (params_sigma R).
  Qed.
  Lemma arguments_sigma m m' : renamed_method rho sigma m m' ->
    map param_ident (m_inputs m') = map sigma (map param_ident (m_inputs m)).
  Proof.
    intros R. pose proof (rn_inputs R) as F. induction F as [|p p' l l' P F IH]; cbn; [reflexivity|]. rewrite IH. f_equal.
    destruct p as [|pt], p' as [|pt']; cbn in P; try contradiction; cbn; [symmetry; apply (proj2 PR)|].
    destruct P as (i & P1 & P2). unfold pat_name. now rewrite P1, P2.
  Qed.
End Fields.
