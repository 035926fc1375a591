(** MacroNameProofs.v — different usual names give different variants. *)
From Coq Require Import String Ascii List Bool Arith Lia.
From Verif Require Import MacroSyntax MacroSpec.
Import ListNotations.
Open Scope string_scope.

Definition is_capital (c : ascii) : bool :=
  let n := nat_of_ascii c in (Nat.leb 65 n && Nat.leb n 90)%bool.
Definition small (c : ascii) : ascii := ascii_of_nat (nat_of_ascii c + 32).
Fixpoint decode (s : string) : string :=
  match s with
  | EmptyString => EmptyString
  | String c s' => if is_capital c then String "_" (String (small c) (decode s')) else String c (decode s')
  end.
Lemma lower_facts c : is_lowercase c = true ->
  is_capital (uppercase c) = true /\ small (uppercase c) = c /\ is_capital c = false /\ (c =? "_")%char = false.
Proof. destruct c as [[] [] [] [] [] [] [] []]; vm_compute; auto; discriminate. Qed.
Lemma number_facts c : is_number c = true -> is_capital c = false /\ (c =? "_")%char = false.
Proof. destruct c as [[] [] [] [] [] [] [] []]; vm_compute; auto; discriminate. Qed.

Lemma in_word_cons c s : in_word (String c s) = true ->
  (c = "_"%char /\ exists c' s', s = String c' s' /\ is_lowercase c' = true /\ in_word s' = true) \/
  ((is_lowercase c = true \/ is_number c = true) /\ in_word s = true).
Proof.
  intros H. destruct (ascii_dec c "_") as [->|N].
  - destruct s as [|c' s']; [cbn in H; discriminate|]. cbn in H. apply andb_true_iff in H. left. eauto.
  - right. assert (E : in_word (String c s) = ((is_lowercase c || is_number c) && in_word s)%bool).
    { destruct c as [[] [] [] [] [] [] [] []]; try reflexivity. now elim N. }
    rewrite E in H. apply andb_true_iff in H. destruct H as [H1 H2]. apply orb_true_iff in H1. auto.
Qed.
Lemma decode_word n : forall s, String.length s <= n -> in_word s = true -> decode (camel_case false s) = s.
Proof.
  induction n as [|n IH]; intros s L W; (destruct s as [|c s]; [reflexivity|]); [cbn in L; lia|].
  destruct (in_word_cons _ _ W) as [[-> (c' & s' & -> & L' & W')]|[K W']].
  - destruct (lower_facts _ L') as (A1 & A2 & A3 & A4). cbn. rewrite A4. cbn. rewrite A1, A2.
    rewrite IH; [reflexivity|cbn in L; lia|exact W'].
  - assert (A : is_capital c = false /\ (c =? "_")%char = false).
    { destruct K as [K|K]; [apply lower_facts in K; tauto|apply number_facts in K; tauto]. }
    destruct A as [A1 A2]. cbn. rewrite A2. cbn. rewrite A1. rewrite IH; [reflexivity|cbn in L; lia|exact W'].
Qed.
Lemma decode_snake s : snake_case s = true -> decode (camel_case true s) = String "_" s.
Proof.
  destruct s as [|c s]; [discriminate|]. cbn. rewrite andb_true_iff. intros [L W].
  destruct (lower_facts _ L) as (A1 & A2 & A3 & A4). rewrite A4. cbn. rewrite A1, A2.
  now rewrite (decode_word (String.length s)).
Qed.
Theorem camel_injective a b : snake_case a = true -> snake_case b = true ->
  camel_case true a = camel_case true b -> a = b.
Proof.
  intros A B E. apply decode_snake in A, B. rewrite E, B in A. now injection A.
Qed.

(** ** Exactly which names collide *)
From Verif Require Import MacroNameSpec.
Lemma decode_without s : decode s = without_capitals s.
Proof. induction s as [|c s IH]; [reflexivity|]. cbn. rewrite IH. reflexivity. Qed.

Fixpoint no_underscore (s : string) : bool :=
  match s with EmptyString => true | String c s' => negb (c =? "_")%char && no_underscore s' end.
Lemma upper_underscore c : (c =? "_")%char = false -> (uppercase c =? "_")%char = false.
Proof. destruct c as [[] [] [] [] [] [] [] []]; vm_compute; auto; discriminate. Qed.
Lemma camel_no_underscore s : forall b, no_underscore (camel_case b s) = true.
Proof.
  induction s as [|c s IH]; intros b; [reflexivity|]. cbn. destruct (c =? "_")%char eqn:E; [apply IH|].
  cbn. rewrite IH. destruct b; [rewrite (upper_underscore _ E)|rewrite E]; reflexivity.
Qed.
Lemma capital_facts c : is_capital c = true -> uppercase (small c) = c /\ (small c =? "_")%char = false /\ is_lowercase (small c) = true.
Proof. destruct c as [[] [] [] [] [] [] [] []]; vm_compute; auto; discriminate. Qed.
Lemma recode s : no_underscore s = true -> camel_case false (decode s) = s.
Proof.
  induction s as [|c s IH]; [reflexivity|]. cbn. rewrite andb_true_iff. intros [U W].
  destruct (is_capital c) eqn:K.
  - destruct (capital_facts _ K) as (A & B & _). cbn. rewrite B, A. f_equal. now apply IH.
  - cbn. rewrite (proj1 (negb_true_iff _) U). f_equal. now apply IH.
Qed.
Lemma decode_camel_iff a b : camel_case true a = camel_case true b <-> decode (camel_case true a) = decode (camel_case true b).
Proof.
  split; [now intros ->|]. intros E. rewrite <- (recode _ (camel_no_underscore a true)), E. apply recode, camel_no_underscore.
Qed.

Lemma squeeze_cons c s : (c =? "_")%char = false -> squeezed (String c s) = String c (squeezed s).
Proof. intros E. cbn. now rewrite E. Qed.
Lemma squeeze_underscore s : squeezed (String "_" s) = if starts_small s then String "_" (squeezed s) else squeezed s.
Proof. cbn. now destruct (starts_small s). Qed.
Lemma other_facts c : is_lowercase c = false -> uppercase c = c.
Proof. destruct c as [[] [] [] [] [] [] [] []]; vm_compute; auto; discriminate. Qed.
Lemma decode_camel s : forall b, decode (camel_case b s) = squeezed (if b then String "_" (decode s) else decode s).
Proof.
  induction s as [|c s IH]; intros b; [now destruct b|]. cbn [camel_case decode].
  destruct (Ascii.eqb_spec c "_") as [->|N].
  - rewrite IH. change (is_capital "_") with false. cbv iota. destruct b; [|reflexivity].
    now rewrite (squeeze_underscore (String "_" (decode s))).
  - assert (U : (c =? "_")%char = false) by now apply Ascii.eqb_neq.
    destruct (is_capital c) eqn:K.
    + assert (V : uppercase c = c).
      { apply other_facts. destruct (is_lowercase c) eqn:L; [|reflexivity]. apply lower_facts in L. destruct L as (_ & _ & L & _). congruence. }
      destruct (capital_facts _ K) as (_ & B & L).
      assert (G : squeezed (String "_" (String (small c) (decode s))) = String "_" (String (small c) (squeezed (decode s)))).
      { rewrite squeeze_underscore. cbn [starts_small]. rewrite L. now rewrite (squeeze_cons _ _ B). }
      destruct b.
      * rewrite V. cbn [decode]. rewrite K, (IH false). rewrite squeeze_underscore. cbn [starts_small].
        change (is_lowercase "_") with false. cbv iota. now rewrite G.
      * cbn [decode]. rewrite K, (IH false). now rewrite G.
    + destruct b.
      * rewrite squeeze_underscore. cbn [starts_small]. destruct (is_lowercase c) eqn:L.
        -- destruct (lower_facts _ L) as (A1 & A2 & _ & _). cbn [decode]. rewrite A1, A2, (IH false).
           now rewrite (squeeze_cons _ _ U).
        -- rewrite (other_facts _ L). cbn [decode]. rewrite K, (IH false). now rewrite (squeeze_cons _ _ U).
      * cbn [decode]. rewrite K, (IH false). now rewrite (squeeze_cons _ _ U).
Qed.

(** The underscore at the start can be told from the rest. *)
Definition with_underscore (s : string) : string := if starts_small s then String "_" s else s.
Lemma small_squeezed s : starts_small s = true -> starts_small (squeezed s) = true /\ drop_underscore (squeezed s) = squeezed s.
Proof.
  destruct s as [|c s]; [discriminate|]. cbn [starts_small]. intros L. destruct (lower_facts _ L) as (_ & _ & _ & U).
  rewrite (squeeze_cons _ _ U). cbn. now rewrite U.
Qed.
Lemma not_small_squeezed s : starts_small s = false -> with_underscore (drop_underscore (squeezed s)) = squeezed s.
Proof.
  induction s as [|c s IH]; [reflexivity|]. cbn [starts_small]. intros L. destruct (Ascii.eqb_spec c "_") as [->|N].
  - rewrite squeeze_underscore. destruct (starts_small s) eqn:S; [|now apply IH].
    cbn. unfold with_underscore. now rewrite (proj1 (small_squeezed _ S)).
  - assert (U : (c =? "_")%char = false) by now apply Ascii.eqb_neq.
    rewrite (squeeze_cons _ _ U). cbn. rewrite U. unfold with_underscore. cbn. now rewrite L.
Qed.
Lemma start_squeezed s : with_underscore (drop_underscore (squeezed s)) = squeezed (String "_" s).
Proof.
  rewrite squeeze_underscore. destruct (starts_small s) eqn:S; [|now apply not_small_squeezed].
  destruct (small_squeezed _ S) as [A ->]. unfold with_underscore. now rewrite A.
Qed.
Lemma drop_start s : drop_underscore (squeezed (String "_" s)) = drop_underscore (squeezed s).
Proof.
  rewrite squeeze_underscore. destruct (starts_small s) eqn:S; [|reflexivity]. cbn. symmetry. now apply small_squeezed.
Qed.
Theorem camel_collide a b : camel_case true a = camel_case true b <-> stem a = stem b.
Proof.
  rewrite decode_camel_iff, !decode_camel. unfold stem. rewrite <- (decode_without a), <- (decode_without b). split; intros E.
  - rewrite <- (drop_start (decode a)), E. apply drop_start.
  - rewrite <- (start_squeezed (decode a)), E. apply start_squeezed.
Qed.
(** Usual names are their own stems. *)
Lemma stem_snake s : snake_case s = true -> stem s = s.
Proof.
  intros S. pose proof (decode_snake _ S) as D. rewrite decode_camel in D. unfold stem. rewrite <- (decode_without s).
  rewrite <- (drop_start (decode s)), D. reflexivity.
Qed.
