(** SerdeProofs.v — C23 to C25. *)

From Coq Require Import List Bool Arith String Lia.
From Verif Require Import Machine Api Serde.
Import ListNotations.
Set Implicit Arguments.
Local Open Scope string_scope.

Section Serde.
  Variable m : machine.
  Variable ser_shared : Shared m -> result data.
  Variable ser_state : State m -> result data.
  Variable de_shared : data -> result (Shared m).
  Variable de_state : data -> result (State m).
  Variable f : format.

  Notation ser := (ser_inner m ser_shared ser_state f).
  Notation de := (de_inner m de_shared de_state f).
  Notation vmap := (visit_map m de_shared de_state).
  Notation readable := (readable m de_shared de_state).

  Lemma round_trip_inner i d :
    round_trips m ser_shared ser_state de_shared de_state ->
    layout_of f = Named \/ layout_of f = Tagged \/ layout_of f = Positional ->
    ser i = Ok d -> de d = Ok i.
  Proof.
    intros [R1 R2] L E. unfold ser_inner in E.
    destruct (ser_shared (shared_storage i)) as [d1|] eqn:E1; [|discriminate]. simpl in E.
    destruct (ser_state (state i)) as [d2|] eqn:E2; [|discriminate]. simpl in E.
    injection E as <-. apply R1 in E1. apply R2 in E2. destruct i as [sh s]. simpl in *.
    unfold struct_data. destruct L as [L|[L|L]]; rewrite L; simpl.
    - unfold struct_key. rewrite L. simpl. rewrite E1. simpl. rewrite E2. reflexivity.
    - unfold struct_key. rewrite L. simpl. rewrite E1. simpl. rewrite E2. reflexivity.
    - rewrite E1. simpl. rewrite E2. simpl. rewrite andb_false_r. reflexivity.
  Qed.

  Lemma indexed_fails i d : layout_of f = Indexed \/ layout_of f = AsBytes ->
    ser i = Ok d -> de d = Err InvalidType.
  Proof.
    intros L E. unfold ser_inner in E.
    destruct (ser_shared (shared_storage i)) as [d1|] eqn:E1; [|discriminate]. simpl in E.
    destruct (ser_state (state i)) as [d2|] eqn:E2; [|discriminate]. simpl in E.
    injection E as <-. unfold struct_data. destruct L as [L|L]; rewrite L; simpl;
      unfold struct_key; rewrite L; reflexivity.
  Qed.

  (** *** Maps *)

  Lemma field_shared k : field_of_key k = Ok SharedStorage <-> k = KStr "shared_storage".
  Proof.
    unfold field_of_key. split.
    - destruct k as [s| |]; try discriminate. destruct (string_dec s "shared_storage") as [->|]; auto.
      destruct (string_dec s "state"); discriminate.
    - intros ->. reflexivity.
  Qed.
  Lemma field_state k : field_of_key k = Ok StateField <-> k = KStr "state".
  Proof.
    unfold field_of_key. split.
    - destruct k as [s| |]; try discriminate. destruct (string_dec s "shared_storage"); try discriminate.
      destruct (string_dec s "state") as [->|]; [auto|discriminate].
    - intros ->. reflexivity.
  Qed.

  Definition ocount {A} (o : option A) : nat := match o with Some _ => 1 | None => 0 end.

  Lemma occ_cons name k d l : occurrences name ((k, d) :: l) =
    (match k with KStr s => if string_dec s name then 1 else 0 | _ => 0 end) + occurrences name l.
  Proof.
    unfold occurrences. simpl. destruct k as [s| |]; simpl; auto. destruct (string_dec s name); reflexivity.
  Qed.

  (** Success means that exactly the missing fields were there. *)
  Lemma visit_map_ok l : forall osh os i, vmap l osh os = Ok i ->
    match osh, os with
    | Some sh, Some s => l = [] /\ i = Inner sh s
    | Some sh, None => exists d, l = [(KStr "state", d)] /\ de_state d = Ok (state i) /\
                                 shared_storage i = sh
    | None, Some s => exists d, l = [(KStr "shared_storage", d)] /\
                                de_shared d = Ok (shared_storage i) /\ state i = s
    | None, None => exists d1 d2, complete_fields l d1 d2 /\
                      de_shared d1 = Ok (shared_storage i) /\ de_state d2 = Ok (state i)
    end.
  Proof.
    induction l as [|[k d] l IH]; intros osh os i H.
    - simpl in H. destruct osh as [sh|]; [|discriminate]. destruct os as [s|]; [|discriminate].
      injection H as <-. auto.
    - simpl in H. destruct (field_of_key k) as [[]|] eqn:Ek; [| |discriminate]; simpl in H.
      + apply field_shared in Ek. subst k. destruct osh as [sh|]; [discriminate|].
        destruct (de_shared d) as [v|] eqn:Ed; [|discriminate]. simpl in H. apply IH in H.
        destruct os as [s|].
        * destruct H as [-> ->]. exists d. auto.
        * destruct H as (d2 & -> & Hs & Hsh). exists d, d2. split; [left; reflexivity|].
          rewrite Hsh. auto.
      + apply field_state in Ek. subst k. destruct os as [s|]; [discriminate|].
        destruct (de_state d) as [v|] eqn:Ed; [|discriminate]. simpl in H. apply IH in H.
        destruct osh as [sh|].
        * destruct H as [-> ->]. exists d. auto.
        * destruct H as (d1 & -> & Hs & Hsh). exists d1, d. split; [right; reflexivity|].
          rewrite Hsh. auto.
  Qed.

  Lemma map_accepts l i : de (DMap l) = Ok i <->
    exists d1 d2, complete_fields l d1 d2 /\
      de_shared d1 = Ok (shared_storage i) /\ de_state d2 = Ok (state i).
  Proof.
    split.
    - intros H. apply visit_map_ok in H. exact H.
    - intros (d1 & d2 & [->| ->] & H1 & H2); simpl; rewrite H1 || rewrite H2; simpl;
        rewrite H2 || rewrite H1; destruct i; reflexivity.
  Qed.

  Definition occ (l : list (key * data)) : nat * nat :=
    (occurrences "shared_storage" l, occurrences "state" l).

  (** Reading a readable prefix. *)
  Lemma visit_map_prefix good : forall osh os rest,
    (forall k d, In (k, d) good ->
       (k = KStr "shared_storage" /\ exists v, de_shared d = Ok v) \/
       (k = KStr "state" /\ exists v, de_state d = Ok v)) ->
    ocount osh + occurrences "shared_storage" good <= 1 ->
    ocount os + occurrences "state" good <= 1 ->
    exists osh' os', vmap (good ++ rest)%list osh os = vmap rest osh' os' /\
      ocount osh' = ocount osh + occurrences "shared_storage" good /\
      ocount os' = ocount os + occurrences "state" good.
  Proof.
    induction good as [|[k d] good IH]; intros osh os rest Hg H1 H2.
    - exists osh, os. simpl. rewrite !Nat.add_0_r. auto.
    - rewrite occ_cons in H1, H2.
      destruct (Hg k d (or_introl eq_refl)) as [[-> [v Ev]]|[-> [v Ev]]].
      + assert (osh = None) as ->. { destruct osh; [|reflexivity]. simpl in H1. lia. }
        destruct (IH (Some v) os rest) as (osh' & os' & E & C1 & C2).
        * intros k' d' Hin. apply Hg. now right.
        * simpl in H1 |- *. lia.
        * simpl in H2 |- *. lia.
        * exists osh', os'. simpl. rewrite Ev. simpl. split; [exact E|].
          rewrite !occ_cons. simpl. simpl in C1, C2. lia.
      + assert (os = None) as ->. { destruct os; [|reflexivity]. simpl in H2. lia. }
        destruct (IH osh (Some v) rest) as (osh' & os' & E & C1 & C2).
        * intros k' d' Hin. apply Hg. now right.
        * simpl in H1 |- *. lia.
        * simpl in H2 |- *. lia.
        * exists osh', os'. simpl. rewrite Ev. simpl. split; [exact E|].
          rewrite !occ_cons. simpl. simpl in C1, C2. lia.
  Qed.

  Lemma map_missing l : readable l ->
    (occurrences "shared_storage" l = 0 -> de (DMap l) = Err (MissingField "shared_storage")) /\
    (occurrences "shared_storage" l = 1 -> occurrences "state" l = 0 ->
     de (DMap l) = Err (MissingField "state")).
  Proof.
    intros (Hg & O1 & O2).
    destruct (@visit_map_prefix l None None [] Hg O1 O2) as (osh & os & E & C1 & C2).
    rewrite app_nil_r in E. simpl in C1, C2. simpl. rewrite E. simpl.
    split; intros Hs.
    - rewrite Hs in C1. destruct osh; [discriminate|reflexivity].
    - intros Ht. rewrite Hs in C1. rewrite Ht in C2. destruct osh; [|discriminate].
      destruct os; [discriminate|reflexivity].
  Qed.

  Lemma map_unknown good s d rest : readable good ->
    s <> "shared_storage" -> s <> "state" ->
    de (DMap (good ++ (KStr s, d) :: rest)%list) = Err (UnknownField s).
  Proof.
    intros (Hg & O1 & O2) N1 N2.
    destruct (@visit_map_prefix good None None ((KStr s, d) :: rest) Hg O1 O2)
      as (osh & os & E & C1 & C2).
    simpl. rewrite E. simpl.
    destruct (string_dec s "shared_storage"); [contradiction|].
    destruct (string_dec s "state"); [contradiction|reflexivity].
  Qed.

  Lemma map_duplicate good name d rest : readable good -> occurrences name good = 1 ->
    name = "shared_storage" \/ name = "state" ->
    de (DMap (good ++ (KStr name, d) :: rest)%list) = Err (DuplicateField name).
  Proof.
    intros (Hg & O1 & O2) Ho Hn.
    destruct (@visit_map_prefix good None None ((KStr name, d) :: rest) Hg O1 O2)
      as (osh & os & E & C1 & C2).
    simpl in C1, C2. simpl. rewrite E. simpl.
    destruct Hn as [->| ->]; simpl; [rewrite Ho in C1; destruct osh; [reflexivity|discriminate]|].
    rewrite Ho in C2. destruct os; [reflexivity|discriminate].
  Qed.

  Lemma map_not_a_name good k d rest : readable good ->
    (forall s, k <> KStr s) -> de (DMap (good ++ (k, d) :: rest)%list) = Err InvalidType.
  Proof.
    intros (Hg & O1 & O2) Hk.
    destruct (@visit_map_prefix good None None ((k, d) :: rest) Hg O1 O2)
      as (osh & os & E & C1 & C2).
    simpl. rewrite E. destruct k as [s| |]; [now destruct (Hk s)|reflexivity|reflexivity].
  Qed.

  (** *** Sequences *)
  Lemma seq_accepts l i : de (DSeq l) = Ok i <->
    exists d1 d2 rest, l = d1 :: d2 :: rest /\ de_shared d1 = Ok (shared_storage i) /\
      de_state d2 = Ok (state i) /\ (strict f = true -> rest = []).
  Proof.
    split.
    - intros H. destruct l as [|d1 l]; [discriminate|]. simpl in H.
      destruct (de_shared d1) as [sh|] eqn:E1; [|discriminate]. simpl in H.
      destruct l as [|d2 rest]; [discriminate|].
      destruct (de_state d2) as [s|] eqn:E2; [|discriminate]. simpl in H.
      exists d1, d2, rest. destruct (strict f); simpl in H.
      + destruct rest; simpl in H; [|discriminate]. injection H as <-. auto.
      + injection H as <-. split; [reflexivity|]. split; [exact E1|]. split; [exact E2|].
        discriminate.
    - intros (d1 & d2 & rest & -> & E1 & E2 & Hs). simpl. rewrite E1. simpl. rewrite E2. simpl.
      destruct (strict f); simpl; [rewrite Hs by reflexivity; simpl|]; now destruct i.
  Qed.

  Lemma seq_short : de (DSeq []) = Err (InvalidLength 0) /\
    forall d1 v, de_shared d1 = Ok v -> de (DSeq [d1]) = Err (InvalidLength 1).
  Proof. split; [reflexivity|]. intros d1 v E. simpl. now rewrite E. Qed.
End Serde.
