(** RepoUiProofs.v — lemmas about the calculators' user interface. *)

From Coq Require Import String List Bool Arith Lia.
From Verif Require Import Machine Blocking Api RepoExamples RepoSpec RepoUi RepoUiSpec.
From Verif Require FrontProofs.
Import ListNotations.
Open Scope string_scope.
Open Scope list_scope.
Set Implicit Arguments.

Definition all_buttons : list button := control ++ numpad ++ operands ++ zero_point_eq.

Lemma buttons_keypad : all_buttons = map (fun e => (key_cap e, e)) keypad.
Proof. reflexivity. Qed.
Lemma keypad_keys e : In e keypad <-> has_key e.
Proof.
  split.
  - cbn. intros H. repeat (destruct H as [H|H]; [subst e; cbn; repeat constructor|]). destruct H.
  - destruct e as [| |d| |[]|]; cbn; intros H; try tauto.
    do 10 (destruct d as [|d]; [tauto|]). lia.
Qed.
Lemma caps_distinct : NoDup (map key_cap keypad).
Proof. repeat (constructor; [cbn; intros H; repeat (destruct H as [H|H]; [discriminate H|]); exact H|]). constructor. Qed.

Lemma only_pressed e : has_key e -> pressed_in (only e) = [e].
Proof.
  intros H. apply keypad_keys in H. cbn [keypad In] in H.
  repeat (destruct H as [H|H]; [subst e; vm_compute; reflexivity|]). destruct H.
Qed.
Lemma all_only es : Forall has_key es -> pressed (map only es) = es.
Proof.
  induction 1 as [|e es H _ IH]; [reflexivity|]. unfold pressed in *. cbn [map flat_map].
  rewrite (only_pressed _ H), IH. reflexivity.
Qed.

Section Ui.
  Variable m : machine.
  Variable text : Shared m -> string.
  Variable key : calc_event -> Event m.
  Variable cx : Ctx m.
  Variable stack : nat.
  Variable md : mode.

  Definition h (app : initialized_machine m) (es : list calc_event) :=
    im_handles stack md app (map (fun e => (key e, cx)) es).
  Notation runs := (run_native text key cx stack md).

  Lemma h_cons (app : initialized_machine m) e es :
    let r := im_handle stack md cx app (key e) in
    h app (e :: es) = (fst (h (a_machine r) es), Called (a_out r) (Some (a_cx r)) (a_tr r) :: snd (h (a_machine r) es)).
  Proof.
    cbv zeta. unfold h. cbn [map im_handles]. unfold im_handle.
    destruct (im_handles stack md (a_machine _) (map _ es)); reflexivity.
  Qed.
  Lemma h_app (app : initialized_machine m) a b :
    h app (a ++ b) = (fst (h (fst (h app a)) b), snd (h app a) ++ snd (h (fst (h app a)) b)).
  Proof.
    revert app. induction a as [|e a IH]; intros app.
    - cbn [List.app]. change (h app []) with (app, @nil (called m)). cbn [fst snd List.app]. apply surjective_pairing.
    - cbn [List.app]. rewrite !h_cons, IH. reflexivity.
  Qed.

  Lemma click_spec es clicked (app : initialized_machine m) :
    let r := click key cx stack md (map (fun e => (key_cap e, e)) es) clicked app in
    let p := filter (fun e => clicked (key_cap e)) es in
    (fst r = Ret tt /\ completed (snd (h app p)) /\ snd r = fst (h app p)) \/
    (exists w before e after, fst r = Abort w /\ p = before ++ e :: after /\ completed (snd (h app before)) /\
       a_out (im_handle stack md cx (fst (h app before)) (key e)) = Abort w).
  Proof.
    revert app. induction es as [|e es IH]; intros app; cbn [map click filter].
    - left. repeat split. constructor.
    - destruct (clicked (key_cap e)) eqn:C; [|exact (IH app)].
      destruct (a_out (im_handle stack md cx app (key e))) as [[]|w] eqn:O.
      + destruct (IH (a_machine (im_handle stack md cx app (key e)))) as [(A & B & D)|(w & be & x & af & A & B & D & E)].
        * left. cbv zeta in *. split; [exact A|].
          rewrite h_cons. cbn [fst snd]. split; [|exact D]. constructor; [exact O|exact B].
        * right. exists w, (e :: be), x, af. cbv zeta in *. split; [exact A|]. split; [rewrite B; reflexivity|].
          rewrite h_cons. cbn [fst snd]. split; [|exact E]. constructor; [exact O|exact D].
      + right. exists w, [], e, (filter (fun e => clicked (key_cap e)) es). cbn [fst].
        split; [reflexivity|]. split; [reflexivity|]. split; [constructor|]. exact O.
  Qed.

  (** What is shown in the [i]-th frame. *)
  Definition shown_at (app : initialized_machine m) (frames : list (string -> bool)) (i : nat) : string :=
    text (shared_storage (im_inner (fst (h app (pressed (firstn i frames)))))).

  Lemma run_spec frames (app : initialized_machine m) :
    let r := runs app frames in
    (fst (snd r) = Ret tt /\ completed (snd (h app (pressed frames))) /\ snd (snd r) = fst (h app (pressed frames)) /\
     fst r = map (shown_at app frames) (seq 0 (length frames))) \/
    (exists w k before e after, fst (snd r) = Abort w /\ pressed frames = before ++ e :: after /\ completed (snd (h app before)) /\
       a_out (im_handle stack md cx (fst (h app before)) (key e)) = Abort w /\
       fst r = map (shown_at app frames) (seq 0 k) /\ k <= length frames /\
       exists a b, before = pressed (firstn (pred k) frames) ++ a /\ pressed (firstn k frames) = before ++ e :: b).
  Proof.
    revert app. induction frames as [|clicked frames IH]; intros app.
    - left. repeat split. constructor.
    - cbn [run_native update]. unfold update. fold all_buttons. rewrite buttons_keypad.
      pose proof (click_spec keypad clicked app) as CS. cbv zeta in CS. change (filter (fun e => clicked (key_cap e)) keypad) with (pressed_in clicked) in CS.
      destruct (click key cx stack md (map (fun e => (key_cap e, e)) keypad) clicked app) as [o app'].
      cbn [fst snd] in CS.
      assert (SH : forall i, shown_at app (clicked :: frames) (S i) = shown_at (fst (h app (pressed_in clicked))) frames i).
      { intros i. unfold shown_at, pressed. cbn [firstn flat_map]. rewrite h_app. reflexivity. }
      destruct CS as [(-> & B & ->)|(w & be & e & af & -> & B & D & E)].
      + specialize (IH (fst (h app (pressed_in clicked)))). cbv zeta in *.
        destruct (runs (fst (h app (pressed_in clicked))) frames) as [l [o' app'']]. cbn [fst snd] in *.
        destruct IH as [(A1 & A2 & A3 & A4)|(w & k & be & e & af & A1 & A2 & A3 & A4 & A5 & A6 & a & b & A7 & A8)].
        * left. unfold pressed. cbn [flat_map]. fold (pressed frames). rewrite h_app. cbn [fst snd].
          split; [exact A1|]. split; [apply Forall_app; split; assumption|]. split; [exact A3|].
          cbn [length seq map]. f_equal. rewrite A4, <- seq_shift, map_map. apply map_ext. intros i. symmetry. apply SH.
        * right. exists w, (S k), (pressed_in clicked ++ be), e, af. split; [exact A1|].
          split; [unfold pressed in *; cbn [flat_map]; rewrite A2, app_assoc; reflexivity|].
          rewrite h_app. cbn [fst snd]. split; [apply Forall_app; split; assumption|]. split; [exact A4|].
          split; [cbn [seq map]; f_equal; rewrite A5, <- seq_shift, map_map; apply map_ext; intros i; symmetry; apply SH|].
          split; [cbn [length]; lia|]. exists a, b. unfold pressed in *. cbn [pred firstn flat_map]. split.
          -- destruct k as [|k]; [exfalso; cbn in A8; destruct be; discriminate A8|].
             cbn [firstn pred flat_map] in *. rewrite A7, app_assoc. reflexivity.
          -- rewrite A8, app_assoc. reflexivity.
      + right. exists w, 1, be, e, (af ++ pressed frames). cbn [fst snd]. split; [reflexivity|].
        split; [unfold pressed; cbn [flat_map]; rewrite B, <- app_assoc; reflexivity|].
        split; [exact D|]. split; [exact E|]. split; [reflexivity|]. split; [cbn; lia|].
        exists be, af. unfold pressed. cbn [pred firstn flat_map]. split; [reflexivity|]. rewrite app_nil_r. exact B.
  Qed.

  (** One key per frame, then a frame without clicks. *)
  Lemma main_keys (one : forall c : Ctx m, c = cx) (sh : Shared m) es :
    es <> [] -> Forall has_key es ->
    let r := sm_handles stack md (new_state_machine m sh) (map (fun e => (key e, cx)) es) in
    completed (snd r) ->
    exists l, main text key cx stack md sh (map only es ++ [nothing]) = (l ++ [text (sm_shared (fst r))], Ret tt) /\
              length l = length es.
  Proof.
    destruct es as [|e es]; [congruence|]. intros _ F r C. subst r.
    pose proof (@FrontProofs.front_ends_agree m stack md sh cx (key e) (map (fun e => (key e, cx)) es)) as A.
    unfold main. change (um_init stack md cx (new_uninitialized m sh)) with (um_init_with_context stack md (new_uninitialized m sh) cx).
    destruct (um_init_with_context stack md (new_uninitialized m sh) cx) as [[[im|w] cx'] tr].
    - destruct A as (_ & _ & A). rewrite (one cx') in A. cbn [map] in C |- *. cbv zeta in A. rewrite A in C |- *.
      change ((key e, cx) :: map (fun e => (key e, cx)) es) with (map (fun e => (key e, cx)) (e :: es)) in *.
      fold (h im (e :: es)) in C |- *.
      pose proof (run_spec (map only (e :: es) ++ [nothing]) im) as R. cbv zeta in R.
      assert (P : pressed (map only (e :: es) ++ [nothing]) = e :: es).
      { transitivity (pressed (map only (e :: es)) ++ pressed [nothing]); [apply flat_map_app|]. rewrite (all_only F). unfold pressed. cbn [flat_map].
        replace (pressed_in nothing) with (@nil calc_event) by reflexivity. apply app_nil_r. }
      rewrite P in R.
      assert (C' : completed (snd (h im (e :: es)))).
      { destruct (h im (e :: es)) as [im' [|c cs]]; cbn [snd] in *; [constructor|].
        inversion C as [|? ? C1 C2]; subst. constructor; [exact C1|exact C2]. }
      change (map only (e :: es) ++ [nothing]) with (only e :: map only es ++ [nothing]) in R.
      cbn [map List.app]. destruct (runs im (only e :: map only es ++ [nothing])) as [l [o im']]. cbn [fst snd] in R.
      destruct R as [(-> & _ & -> & ->)|(w & k & be & x & af & -> & B & D & E & _)].
      + exists (map (shown_at im (only e :: map only es ++ [nothing])) (seq 0 (length (e :: es)))).
        split; [|rewrite map_length, seq_length; reflexivity]. f_equal.
        replace (length (only e :: map only es ++ [nothing])) with (length (e :: es) + 1)
          by (cbn; rewrite app_length, map_length; reflexivity).
        rewrite seq_app, map_app. f_equal. cbn [seq map plus]. f_equal. unfold shown_at.
        replace (firstn (length (e :: es)) (only e :: map only es ++ [nothing])) with (map only (e :: es)).
        * rewrite (all_only F). unfold sm_shared. destruct (h im (e :: es)) as [im' [|c cs]]; reflexivity.
        * symmetry. change (only e :: map only es ++ [nothing]) with (map only (e :: es) ++ [nothing]).
          rewrite <- (map_length only (e :: es)). rewrite firstn_app, firstn_all, Nat.sub_diag. apply app_nil_r.
      + exfalso. rewrite B, h_app, h_cons in C'. cbn [snd] in C'. apply Forall_app in C'. destruct C' as [_ C'].
        inversion C' as [|? ? C1 _]; subst. cbn [c_out] in C1. discriminate (eq_trans (eq_sym C1) E).
    - exfalso. destruct A as (A & _). cbn [map sm_handles] in C.
      destruct (sm_handles stack md (a_machine (handle_with_context stack md (new_state_machine m sh) (key e) cx)) _) as [q cs].
      cbn [snd] in C. inversion C as [|? ? C1 _]; subst. cbn [c_out] in C1.
      unfold handle_with_context in C1. unfold init_with_context in A. cbn [initialized new_state_machine negb] in A, C1.
      destruct (run_inner (inner_init m stack md) (sm_inner (new_state_machine m sh)) cx) as [[[]|w'] q' c' t']; cbn [a_out] in *; discriminate.
  Qed.
End Ui.
