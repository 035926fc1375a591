(** DebugProofs.v — lemmas for C66. *)

From Coq Require Import String Ascii List Bool Lia.
From Verif Require Import Machine Api DebugFmt DebugSpec.
Import ListNotations.
Open Scope string_scope.
Set Implicit Arguments.

Lemma sapp_nil s : s ++ "" = s.
Proof. induction s as [|c s IH]; cbn; [reflexivity|now rewrite IH]. Qed.
Lemma sapp_assoc a b c : (a ++ b) ++ c = a ++ b ++ c.
Proof. induction a as [|x a IH]; cbn; [reflexivity|now rewrite IH]. Qed.
Lemma sapp_inj a b c : a ++ b = a ++ c -> b = c.
Proof. induction a as [|x a IH]; cbn; [auto|]. intros H. injection H as H. auto. Qed.

Lemma writes_write s : writes (write s) s.
Proof. rewrite <- (sapp_nil s) at 2. constructor; [constructor|reflexivity]. Qed.
Lemma writes_and_then f g s t : writes f s -> writes g t -> writes (f ;? g) (s ++ t).
Proof.
  intros F G. induction F as [|p k s F IH E]; cbn; [exact G|]. rewrite sapp_assoc. constructor; [exact IH|]. rewrite E. reflexivity.
Qed.
Lemma writes_shows f s : writes f s -> shows f s.
Proof.
  intros F W wr text H. induction F as [|p k s F IH E]; intros w; cbn [run].
  - split; [|auto]. exists "", "". split; [reflexivity|]. split; [symmetry; apply sapp_nil|auto].
  - pose proof (H w p) as Hw. destruct (wr w p) as [ok w'] eqn:R. destruct Hw as (a & b & S & T & O).
    destruct ok.
    + rewrite (O eq_refl), sapp_nil in S. subst a. specialize (IH w'). destruct (run wr (k true) w') as [ok w''].
      destruct IH as [(a & b' & S' & T' & O') N]. split; [|exact N].
      exists (p ++ a), b'. split; [rewrite sapp_assoc; now f_equal|]. split; [|exact O'].
      rewrite T', T. apply sapp_assoc.
    + rewrite E. cbn. split; [|intros N; specialize (N w p); rewrite R in N; exact N].
      exists a, (b ++ s). split; [rewrite S; apply sapp_assoc|]. split; [exact T|discriminate].
Qed.

(** The adapter. *)
Fixpoint pad (nl : bool) (s : string) : string :=
  match s with
  | EmptyString => EmptyString
  | String c r => (if nl then "    " else "") ++ String c (pad (Ascii.eqb c newline) r)
  end.
Fixpoint last_nl (nl : bool) (s : string) : bool :=
  match s with EmptyString => nl | String c r => last_nl (Ascii.eqb c newline) r end.
Lemma pad_app s t : forall nl, pad nl (s ++ t) = pad nl s ++ pad (last_nl nl s) t.
Proof. induction s as [|c s IH]; intros nl; cbn [append pad last_nl]; [reflexivity|]. rewrite IH, sapp_assoc. reflexivity. Qed.
Lemma last_nl_app s t : forall nl, last_nl nl (s ++ t) = last_nl (last_nl nl s) t.
Proof. induction s as [|c s IH]; intros nl; cbn; [reflexivity|apply IH]. Qed.
(** One line: not empty, with at most one newline, at its end. *)
Inductive line : string -> Prop :=
| line_one c : line (String c "")
| line_more c l : Ascii.eqb c newline = false -> line l -> line (String c l).
Lemma split_lines s : Forall line (split_inclusive s) /\ List.fold_right append "" (split_inclusive s) = s.
Proof.
  induction s as [|c s [IH1 IH2]]; cbn [split_inclusive]; [split; constructor|].
  destruct (Ascii.eqb c newline) eqn:E.
  - split; [constructor; [constructor|exact IH1]|]. cbn. now rewrite IH2.
  - destruct (split_inclusive s) as [|l ls]; cbn in *.
    + split; [constructor; constructor|]. now rewrite <- IH2.
    + split; [constructor; [constructor; [exact E|exact (Forall_inv IH1)]|exact (Forall_inv_tail IH1)]|]. now rewrite IH2.
Qed.
Lemma ends_last l : line l -> forall nl, last_nl nl l = ends_with_newline l.
Proof.
  intros L. induction L as [c|c l E L IH]; intros nl; [reflexivity|]. cbn [last_nl]. rewrite IH.
  destruct l; [inversion L|reflexivity].
Qed.
Lemma pad_line l : line l -> forall nl, pad nl l = (if nl then "    " else "") ++ l.
Proof.
  intros L. induction L as [c|c l E L IH]; intros nl; [reflexivity|]. cbn [pad]. rewrite E, IH. reflexivity.
Qed.
Lemma writes_lines ls : Forall line ls -> forall nl k s,
  (forall nl', k false nl' = Return false) ->
  writes (k true (last_nl nl (List.fold_right append "" ls))) s ->
  writes (write_lines nl ls k) (pad nl (List.fold_right append "" ls) ++ s).
Proof.
  intros L. induction L as [|l ls L Ls IH]; intros nl k s K S; [exact S|].
  cbn [write_lines List.fold_right] in *. rewrite pad_app, last_nl_app, (ends_last L nl) in *. rewrite (pad_line L).
  assert (P : writes (Write l (fun ok => if ok then write_lines (ends_with_newline l) ls k else k false (ends_with_newline l)))
                (l ++ (pad (ends_with_newline l) (List.fold_right append "" ls) ++ s))).
  { constructor; [apply IH; assumption|apply K]. }
  destruct nl; rewrite !sapp_assoc; [|exact P]. constructor; [exact P|apply K].
Qed.
Lemma writes_padded f s : writes f s -> forall nl, writes (padded nl f) (pad nl s).
Proof.
  intros F. induction F as [|p k s F IH E]; intros nl; cbn [padded]; [constructor|].
  rewrite pad_app. destruct (split_lines p) as [L P]. rewrite <- P at 2 3.
  apply writes_lines; [exact L|intros; rewrite E; reflexivity|]. apply IH.
Qed.
Lemma pad_indented a t : forall nl, pad nl (a ++ "," ++ t) = (if nl then "    " else "") ++ indented a ++ "," ++ pad false t.
Proof.
  induction a as [|c a IH]; intros nl; cbn [append pad indented]; [reflexivity|].
  destruct (Ascii.eqb c newline) eqn:E; rewrite IH; reflexivity.
Qed.

Lemma writes_struct alt name (f g : debug) a b : writes (f alt) a -> writes (g alt) b ->
  writes (debug_struct name [("shared_storage", f); ("state", g)] alt) (struct_text alt name a b).
Proof.
  intros F G. unfold debug_struct, struct_fields, struct_field, struct_text.
  destruct alt.
  - apply writes_and_then; [apply writes_write|].
    change (" {" ++ line_end ++ "    shared_storage: " ++ indented a ++ "," ++ line_end ++
            "    state: " ++ indented b ++ "," ++ line_end ++ "}")
      with ((" {" ++ line_end) ++ "    shared_storage: " ++ indented a ++ "," ++ line_end ++
            "    state: " ++ indented b ++ "," ++ line_end ++ "}").
    assert (PF : forall n (d : debug) x, writes (d true) x ->
              writes (padded true (write n ;? write ": " ;? d true ;? write ("," ++ String newline "")))
                (pad true (n ++ ": " ++ x ++ "," ++ line_end))).
    { intros n d x D. apply writes_padded. repeat (apply writes_and_then; [first [apply writes_write|exact D]|]). apply writes_write. }
    assert (T1 : pad true ("shared_storage" ++ ": " ++ a ++ "," ++ line_end) = "    shared_storage: " ++ indented a ++ "," ++ line_end).
    { rewrite <- (sapp_assoc "shared_storage" ": "), pad_app. change (last_nl true ("shared_storage" ++ ": ")) with false.
      rewrite pad_indented. reflexivity. }
    assert (T2 : pad true ("state" ++ ": " ++ b ++ "," ++ line_end) = "    state: " ++ indented b ++ "," ++ line_end).
    { rewrite <- (sapp_assoc "state" ": "), pad_app. change (last_nl true ("state" ++ ": ")) with false.
      rewrite pad_indented. reflexivity. }
    pose proof (PF "shared_storage" f a F) as P1. rewrite T1 in P1.
    pose proof (PF "state" g b G) as P2. rewrite T2 in P2.
    pose proof (writes_and_then (writes_and_then (writes_write (" {" ++ String newline "")) P1)
                 (writes_and_then (writes_and_then writes_end P2) (writes_write "}"))) as R.
    rewrite !sapp_assoc in R. rewrite !sapp_assoc. exact R.
  - apply writes_and_then; [apply writes_write|].
    pose proof (writes_and_then (writes_and_then (writes_write " { ") (writes_and_then (writes_write "shared_storage") (writes_and_then (writes_write ": ") F)))
                 (writes_and_then (writes_and_then (writes_write ", ") (writes_and_then (writes_write "state") (writes_and_then (writes_write ": ") G)))
                 (writes_write " }"))) as R.
    rewrite !sapp_assoc in R. exact R.
Qed.
Lemma writes_tuple0 alt name : writes (debug_tuple name [] alt) name.
Proof. unfold debug_tuple. cbn [tuple_fields]. rewrite <- (sapp_nil name) at 2. apply writes_and_then; [apply writes_write|constructor]. Qed.
Lemma writes_tuple alt name (f : debug) a : writes (f alt) a -> writes (debug_tuple name [f] alt) (tuple_text alt name a).
Proof.
  intros F. unfold debug_tuple, tuple_fields, tuple_field, tuple_text. destruct alt.
  - apply writes_and_then; [apply writes_write|].
    assert (P : writes (padded true (f true ;? write ("," ++ String newline ""))) ("    " ++ indented a ++ "," ++ line_end)).
    { pose proof (writes_padded (writes_and_then F (writes_write ("," ++ String newline ""))) true) as P.
      rewrite (pad_indented a (String newline "") true) in P. exact P. }
    pose proof (writes_and_then (writes_and_then (writes_write ("(" ++ String newline "")) P) (writes_write ")")) as R.
    rewrite !sapp_assoc in R. exact R.
  - apply writes_and_then; [apply writes_write|].
    pose proof (writes_and_then (writes_and_then (writes_write "(") F) (writes_write ")")) as R. rewrite !sapp_assoc in R. exact R.
Qed.

(** Nothing is lost. *)
Lemma indented_inj a : forall b, indented a = indented b -> a = b.
Proof.
  induction a as [|c a IH]; intros [|d b]; cbn [indented]; [reflexivity| | |].
  - destruct (Ascii.eqb d newline); discriminate.
  - destruct (Ascii.eqb c newline); discriminate.
  - destruct (Ascii.eqb c newline) eqn:C, (Ascii.eqb d newline) eqn:D; intros H;
      try (injection H as E H; subst d; congruence).
    + injection H as E H. subst d. f_equal. exact (IH b H).
    + injection H as E H. subst d. f_equal. exact (IH b H).
Qed.
Lemma sapp_length a b : String.length (a ++ b) = String.length a + String.length b.
Proof. induction a as [|c a IH]; cbn; [reflexivity|now rewrite IH]. Qed.
Lemma sapp_inj_r a b c : a ++ c = b ++ c -> a = b.
Proof.
  revert b. induction a as [|x a IH]; intros [|y b]; cbn; intros H; [reflexivity| | |].
  - apply (f_equal String.length) in H. cbn in H. rewrite sapp_length in H. lia.
  - apply (f_equal String.length) in H. cbn in H. rewrite sapp_length in H. lia.
  - injection H as -> H. f_equal. exact (IH b H).
Qed.
Lemma tuple_text_inj alt name a b : tuple_text alt name a = tuple_text alt name b -> a = b.
Proof.
  unfold tuple_text. destruct alt; intros H; apply sapp_inj in H.
  - apply (@sapp_inj "(") in H. apply (@sapp_inj line_end) in H. apply (@sapp_inj "    ") in H. apply sapp_inj_r in H. exact (indented_inj _ _ H).
  - apply (@sapp_inj "(") in H. exact (sapp_inj_r _ _ _ H).
Qed.
Lemma response_text_inj {S} alt (s : S -> string) : (forall x y, s x = s y -> x = y) ->
  forall r r', response_text alt s r = response_text alt s r' -> r = r'.
Proof.
  intros I [| |x] [| |y]; cbn [response_text]; intros H; try reflexivity;
    try (destruct alt; discriminate). f_equal. apply I. exact (tuple_text_inj _ _ _ _ H).
Qed.
Lemma node_text_inj {S U} alt (s : S -> string) (u : U -> string) :
  (forall x y, s x = s y -> x = y) -> (forall x y, u x = u y -> x = y) ->
  forall n n', node_text alt s u n = node_text alt s u n' -> n = n'.
Proof.
  intros I J [x|x] [y|y]; cbn [node_text]; intros H;
    try (destruct alt; discriminate); f_equal; [apply I|apply J]; exact (tuple_text_inj _ _ _ _ H).
Qed.
Lemma sapp_head_len a b c d : String.length a = String.length c -> a ++ b = c ++ d -> a = c /\ b = d.
Proof.
  revert c. induction a as [|x a IH]; intros [|y c]; cbn; intros L H; try discriminate; [auto|].
  injection H as -> H. injection L as L. destruct (IH c L H) as [-> ->]. auto.
Qed.
Lemma shows_response {S} (s : S -> debug) alt (text : S -> string) : (forall x, writes (s x alt) (text x)) ->
  forall r, shows (debug_response s r alt) (response_text alt text r).
Proof. intros T [| |x]; cbn [debug_response response_text]; apply writes_shows; [apply writes_tuple0|apply writes_tuple0|apply writes_tuple, T]. Qed.
Lemma shows_node {S U} (s : S -> debug) (u : U -> debug) alt (st : S -> string) (ut : U -> string) :
  (forall x, writes (s x alt) (st x)) -> (forall y, writes (u y alt) (ut y)) ->
  forall n, shows (debug_node s u n alt) (node_text alt st ut n).
Proof. intros A B [x|y]; cbn [debug_node node_text]; apply writes_shows, writes_tuple; [apply A|apply B]. Qed.

(** A `String`: it never fails. *)
Definition push (w s : string) : bool * string := (true, w ++ s).
Lemma push_honest : honest push (fun w => w).
Proof. intros w s. cbn. exists s, "". split; [symmetry; apply sapp_nil|]. auto. Qed.
Lemma shows_unique f s t : shows f s -> shows f t -> s = t.
Proof.
  intros F G. pose proof (F string push (fun w => w) push_honest "") as A. pose proof (G string push (fun w => w) push_honest "") as B.
  destruct (run push f "") as [ok w]. destruct A as [(p & q & A1 & A2 & A3) AO], B as [(p' & q' & B1 & B2 & B3) _].
  assert (O : ok = true) by (apply AO; reflexivity). rewrite (A3 O), sapp_nil in A1. rewrite (B3 O), sapp_nil in B1.
  cbn in A2, B2. congruence.
Qed.
Lemma response_apart {S} (s : S -> debug) alt (text : S -> string) : (forall x, writes (s x alt) (text x)) ->
  (forall x y, text x = text y -> x = y) ->
  forall r r' t, shows (debug_response s r alt) t -> shows (debug_response s r' alt) t -> r = r'.
Proof.
  intros T I r r' t R R'. apply (response_text_inj alt text I).
  rewrite (shows_unique (shows_response s alt text T r) R). exact (shows_unique R' (shows_response s alt text T r')).
Qed.
Lemma node_apart {S U} (s : S -> debug) (u : U -> debug) alt (st : S -> string) (ut : U -> string) :
  (forall x, writes (s x alt) (st x)) -> (forall y, writes (u y alt) (ut y)) ->
  (forall x y, st x = st y -> x = y) -> (forall x y, ut x = ut y -> x = y) ->
  forall n n' t, shows (debug_node s u n alt) t -> shows (debug_node s u n' alt) t -> n = n'.
Proof.
  intros A B I J n n' t N N'. apply (node_text_inj alt st ut I J).
  rewrite (shows_unique (shows_node s u alt st ut A B n) N). exact (shows_unique N' (shows_node s u alt st ut A B n')).
Qed.
Lemma name_wrong m (shared : Shared m -> debug) (st : State m -> debug) alt (ta : Shared m -> string) (tb : State m -> string) :
  (forall sh, writes (shared sh alt) (ta sh)) -> (forall s, writes (st s alt) (tb s)) ->
  forall (um : uninitialized_machine m) a b, ~ shows (debug_uninitialized shared st um alt) (struct_text alt "UninitializedStateMachine" a b).
Proof.
  intros A B um a b H.
  pose proof (shows_unique H (writes_shows (writes_struct alt "UnInitializedStateMachine" _ _ (A _) (B _)))) as E.
  destruct alt; discriminate E.
Qed.
