(** Props18.v — C69: the calculators' user interface.  Theorems only; see RepoUi.v for the code
    and RepoUiSpec.v for the vocabulary. *)

From Coq Require Import String List Bool Arith Lia.
From Verif Require Import MacroSyntax MacroVisit MacroAnalyze MacroLower MacroGen MacroSem MacroSpec MacroOrderSpec MacroSource MacroExamples.
From Verif Require Import Machine Blocking Api Spec Sim RepoExamples RepoSpec RepoUi RepoUiSpec.
From Verif Require RepoUiProofs RepoCalcFacts RepoAgree.
Import ListNotations.
Open Scope string_scope.
Open Scope list_scope.

(** C69.  There is one button for each key, labelled with what is written on it; a button handles
    its own key. *)
Theorem C69_buttons :
  let buttons := control ++ numpad ++ operands ++ zero_point_eq in
  (forall l e, In (l, e) buttons <-> has_key e /\ l = key_cap e) /\ NoDup (map fst buttons) /\ NoDup (map snd buttons).
Proof.
  cbv zeta. fold RepoUiProofs.all_buttons. rewrite RepoUiProofs.buttons_keypad. split; [|split].
  - intros l e. rewrite <- RepoUiProofs.keypad_keys, in_map_iff. split.
    + intros (e' & H & I). inversion H; subst. auto.
    + intros [I ->]. exists e. auto.
  - rewrite map_map. exact RepoUiProofs.caps_distinct.
  - rewrite map_map, map_id. exact (NoDup_map_inv _ _ RepoUiProofs.caps_distinct).
Qed.
Print Assumptions C69_buttons.

(** However the buttons are clicked, the machine handles the keys pressed, one frame after the
    other, and each frame shows the display as the frames before it left it; if handling a key
    panics, that is the end. *)
Theorem C69_frames :
  forall (m : machine) (text : Shared m -> string) (key : calc_event -> Event m) (cx : Ctx m) (stack : nat) (md : mode)
         (app : initialized_machine m) (frames : list (string -> bool)),
    let h := fun es => im_handles stack md app (map (fun e => (key e, cx)) es) in
    let shown := fun i => text (shared_storage (im_inner (fst (h (pressed (firstn i frames)))))) in
    let r := run_native text key cx stack md app frames in
    (completed (snd (h (pressed frames))) /\
     r = (map shown (seq 0 (length frames)), (Ret tt, fst (h (pressed frames))))) \/
    (exists w k before e after,
       pressed frames = before ++ e :: after /\ completed (snd (h before)) /\
       a_out (im_handle_with_context stack md (fst (h before)) (key e) cx) = Abort w /\
       k <= length frames /\ (exists a, before = pressed (firstn (pred k) frames) ++ a) /\
       (exists b, pressed (firstn k frames) = before ++ e :: b) /\
       fst r = map shown (seq 0 k) /\ fst (snd r) = Abort w).
Proof.
  intros m text key cx stack md app frames. cbv zeta.
  destruct (@RepoUiProofs.run_spec m text key cx stack md frames app)
    as [(A & B & C & D)|(w & k & be & e & af & A & B & C & D & E & F & a & b & G & H)].
  - left. split; [exact B|]. destruct (run_native text key cx stack md app frames) as [l [o x]]. cbn [fst snd] in *. subst. reflexivity.
  - right. exists w, k, be, e, af. repeat (split; [eassumption||(eexists; eassumption)|]). exact A.
Qed.
Print Assumptions C69_frames.

(** Clicking one button after the other, the display then shows the value of the chain keyed in;
    for numbers as in C57. *)
Theorem C69_computes :
  forall (fl : floats) (minus0 : string) (stack : nat) (md : mode)
         (n : entry) (l : list (operator * entry)) (v : f32 fl) (vs : list (f32 fl)),
    4 <= stack -> well_keyed true n -> Forall (fun on => well_keyed false (snd on)) l -> Forall has_key (chain_keys n l) ->
    f_parse fl (canonical n) = Some v ->
    Forall2 (fun on v => f_parse fl (canonical (snd on)) = Some v) l vs ->
    let result := fold_left (fun acc (ov : operator * f32 fl) => eval_op fl (fst ov) acc (snd ov)) (combine (map fst l) vs) v in
    exists before,
      main (m := calculator_with fl minus0) (fun d => d) (fun e => e) tt stack md "" (map only (chain_keys n l) ++ [nothing])
        = (before ++ [f_show fl result], Ret tt) /\
      length before = length (chain_keys n l).
Proof.
  intros fl minus0 stack md n l v vs ST P Ps K V Vs. cbv zeta. rewrite <- (RepoCalcFacts.read_right P) in V.
  destruct (@RepoCalcFacts.new_chain fl minus0 stack md "" ST n l v vs (proj1 P) (RepoCalcFacts.wells Ps) V
              (@RepoCalcFacts.reads_right _ (f_parse fl) l vs Ps Vs)) as (_ & S & C).
  destruct (@RepoUiProofs.main_keys (calculator_with fl minus0) (fun d => d) (fun e => e) tt stack md) with (sh := "") (es := chain_keys n l)
    as (b & E & L).
  - intros []; reflexivity.
  - unfold chain_keys. intros X. apply app_eq_nil in X. destruct X as [_ X]. apply app_eq_nil in X. destruct X as [_ X]. discriminate X.
  - exact K.
  - exact C.
  - exists b. split; [|exact L]. refine (eq_trans E _). do 3 f_equal. exact S.
Qed.
Print Assumptions C69_computes.
Theorem C69_computes_macro :
  forall fl o, exists g first,
    expand o calc_args calc_impl = Done g /\ compiles g /\ built (calc_source fl) g (Built "begin" []) = Some first /\
    forall (stack : nat) (md : mode) (n : entry) (l : list (operator * entry)) (v : f32 fl) (vs : list (f32 fl)),
    4 <= stack -> well_keyed true n -> Forall (fun on => well_keyed false (snd on)) l -> Forall has_key (chain_keys n l) ->
    f_parse fl (canonical n) = Some v ->
    Forall2 (fun on v => f_parse fl (canonical (snd on)) = Some v) l vs ->
    let result := fold_left (fun acc (ov : operator * f32 fl) => eval_op fl (fst ov) acc (snd ov)) (combine (map fst l) vs) v in
    exists before,
      main (m := generated_machine (compiled (calc_source fl) g first)) (fun d => d) (fun e => e) tt stack md ""
        (map only (chain_keys n l) ++ [nothing])
        = (before ++ [f_show fl result], Ret tt) /\
      length before = length (chain_keys n l).
Proof.
  intros fl o. destruct (@RepoAgree.calc_macro_chain fl o) as (g & first & E1 & E2 & E3 & H). exists g, first.
  split; [exact E1|]. split; [exact E2|]. split; [exact E3|].
  intros stack md n l v vs ST P Ps K V Vs. cbv zeta. rewrite <- (RepoCalcFacts.read_right P) in V.
  destruct (H stack md "" n l v vs ST (proj1 P) (RepoCalcFacts.wells Ps) V (@RepoCalcFacts.reads_right _ (f_parse fl) l vs Ps Vs)) as (_ & S & C).
  destruct (@RepoUiProofs.main_keys (generated_machine (compiled (calc_source fl) g first)) (fun d => d) (fun e => e) tt stack md)
    with (sh := "") (es := chain_keys n l) as (b & E & L).
  - intros []; reflexivity.
  - unfold chain_keys. intros X. apply app_eq_nil in X. destruct X as [_ X]. apply app_eq_nil in X. destruct X as [_ X]. discriminate X.
  - exact K.
  - exact C.
  - exists b. split; [|exact L]. refine (eq_trans E _). do 3 f_equal. exact S.
Qed.
Print Assumptions C69_computes_macro.

(** 12 + 30 × 2 = 84: the texts shown, ending with the result; two keys in one frame; a panic. *)
Example C69_case :
  let n k := Entry false k None in
  let run := main (m := calculator toy) (fun d => d) (fun e => e) tt 4 BlockingMode "" in
  Forall has_key (chain_keys (n [1; 2]) [(Add, n [3; 0]); (Mul, n [2])]) /\
  run (map only (chain_keys (n [1; 2]) [(Add, n [3; 0]); (Mul, n [2])]) ++ [nothing])
    = (["0"; "1"; "12"; "12"; "3"; "30"; "30"; "2"; "84"], Ret tt) /\
  run [(fun l => String.eqb l "5" || String.eqb l "7"); nothing] = (["0"; "75"], Ret tt) /\
  run [only (Digit 0); only Equal; only (Digit 1)] = (["0"; ""], Abort Panicked).
Proof.
  split; [repeat constructor; cbn; lia|]. split; [vm_compute; reflexivity|]. split; vm_compute; reflexivity.
Qed.
