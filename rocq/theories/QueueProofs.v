(** QueueProofs.v — proofs for C91. *)

From Coq Require Import List Bool Arith Lia.
From Verif Require Import Machine Api NestSpec QueueSpec.
From Verif Require Props38.
Import ListNotations.

Section Queue.
  Variable m : machine.
  Variable stack : nat.
  Variable md : mode.
  Variable queue : Ctx m -> list (Event m).
  Variable set_queue : Ctx m -> list (Event m) -> Ctx m.
  Hypothesis QS : forall cx q, queue (set_queue cx q) = q.
  Notation L := (loop stack md queue set_queue).

  Lemma call_posts sm e cx : only_post m queue ->
    exists own, queue (a_cx (handle_with_context stack md sm e cx)) = queue cx ++ own.
  Proof.
    intros P.
    refine (proj2 (Props38.C89_calls_move m (fun p q => exists own, queue (snd q) = queue (snd p) ++ own) _ _ P stack md sm cx) e).
    - intros p. exists []. now rewrite app_nil_r.
    - intros p q r (a & A) (b & B). exists (a ++ b). now rewrite B, A, app_assoc.
  Qed.

  Lemma loop_fifo sm cx ts sm' cx' : only_post m queue -> L sm cx ts sm' cx' ->
    exists posted, Forall2 (fun t p => exists own, p = own ++ t_news t) ts posted /\
      queue cx ++ concat posted = map (@t_event m) ts ++ queue cx'.
  Proof.
    intros P H. induction H as [sm cx|sm cx e q out sm1 cx1 tr news ts sm' cx' Q E H IH].
    - exists []. split; [constructor|cbn; now rewrite app_nil_r].
    - destruct IH as (posted & F & G). rewrite QS in G.
      destruct (call_posts sm e (set_queue cx q) P) as (own & O). rewrite QS in O.
      assert (X : cx1 = a_cx (handle_with_context stack md sm e (set_queue cx q))) by (cbn [exec] in E; congruence).
      rewrite <- X in O. exists ((own ++ news) :: posted). split; [constructor; [now exists own|exact F]|].
      cbn [concat map app t_event]. rewrite Q, <- G, O. cbn. f_equal. now rewrite !app_assoc.
  Qed.

  Lemma loop_history sm cx ts sm' cx' : L sm cx ts sm' cx' ->
    exists ops cs, history stack md ops sm cs sm' /\ length cs = length ts /\
      Forall2 (fun t oc => same_call t (fst oc) (snd oc)) ts (combine ops cs) /\ length ops = length ts.
  Proof.
    induction 1 as [sm cx|sm cx e q out sm1 cx1 tr news ts sm' cx' Q E H IH].
    - exists [], []. repeat split; constructor.
    - destruct IH as (ops & cs & A & B & C & D). exists (OpHandle e (set_queue cx q) :: ops), (Called out (Some cx1) tr :: cs).
      split; [econstructor; eassumption|]. cbn. split; [now rewrite B|]. split; [|now rewrite D].
      constructor; [|exact C]. split; [eexists; reflexivity|]. split; reflexivity.
  Qed.

  Variable rank : Event m -> nat.
  Hypothesis P : only_post m queue.
  Hypothesis S : posts_smaller m stack md queue rank.
  (** One generation: the events [q] at the front are handled, all they post is smaller than [k]. *)
  Lemma generation k q : forall sm cx rest,
    queue cx = q ++ rest -> Forall (fun e => rank e <= k) q -> Forall (fun e => rank e < k) rest ->
    exists ts sm' cx', L sm cx ts sm' cx' /\ Forall (fun t => t_news t = []) ts /\
      Forall (fun e => rank e < k) (queue cx').
  Proof.
    induction q as [|e q IH]; intros sm cx rest Q F R.
    - exists [], sm, cx. split; [constructor|]. split; [constructor|]. now rewrite Q.
    - inversion F as [|? ? Fe Fq]; subst. cbn in Q.
      destruct (call_posts sm e (set_queue cx (q ++ rest)) P) as (own & O).
      set (r := handle_with_context stack md sm e (set_queue cx (q ++ rest))) in *.
      assert (SM := S sm e _ own O). rewrite QS in O.
      destruct (IH (a_machine r) (set_queue (a_cx r) (queue (a_cx r) ++ [])) (rest ++ own)) as (ts & sm' & cx' & A & B & C).
      + rewrite QS, O, app_nil_r. now rewrite app_assoc.
      + exact Fq.
      + apply Forall_app. split; [exact R|]. refine (Forall_impl _ _ SM). intros a Ha. cbn in Ha. lia.
      + exists (Turn e (a_out r) (a_tr r) [] :: ts), sm', cx'. split; [|split; [constructor; [reflexivity|exact B]|exact C]].
        econstructor; [exact Q| |exact A]. reflexivity.
  Qed.
  Lemma loop_app sm cx ts sm1 cx1 ts' sm' cx' : L sm cx ts sm1 cx1 -> L sm1 cx1 ts' sm' cx' -> L sm cx (ts ++ ts') sm' cx'.
  Proof. induction 1; intros; [assumption|]. cbn. econstructor; eauto. Qed.
  Lemma drains k : forall sm cx, Forall (fun e => rank e < k) (queue cx) ->
    exists ts sm' cx', L sm cx ts sm' cx' /\ Forall (fun t => t_news t = []) ts /\ queue cx' = [].
  Proof.
    induction k as [|k IH]; intros sm cx F.
    - exists [], sm, cx. split; [constructor|]. split; [constructor|].
      destruct (queue cx) as [|e q]; [reflexivity|]. inversion F; lia.
    - destruct (generation k (queue cx) sm cx []) as (ts & sm1 & cx1 & A & B & C).
      + now rewrite app_nil_r.
      + refine (Forall_impl _ _ F). intros a Ha. cbn in Ha. lia.
      + constructor.
      + destruct (IH sm1 cx1 C) as (ts' & sm' & cx' & A' & B' & C').
        exists (ts ++ ts'), sm', cx'. split; [eapply loop_app; eassumption|]. split; [now apply Forall_app|exact C'].
  Qed.
End Queue.
