(** MacroExtraProofs.v — variant names, async detection, hooks, cycles. *)

From Coq Require Import String Ascii List Bool Arith Lia Permutation.
From Verif Require Import Machine Api Spec TotalProofs.
From Verif Require Import MacroSyntax MacroVisit MacroAnalyze MacroLower MacroGen MacroSem MacroSpec.
From Verif Require Import MacroBasics MacroExpandProofs MacroLowerProofs MacroCallProofs MacroMachineProofs.
From Verif Require Import MacroBehaviour MacroPathProofs MacroConfigProofs.
Import ListNotations.
Open Scope string_scope.
Open Scope list_scope.
Set Implicit Arguments.

(** ** Cycles *)
Lemma lineage_above item a l b : NoDup (map m_name (methods item)) ->
  lineage item (Some a) l -> above item a b -> exists l', lineage item (Some b) l' /\ length l' < length l.
Proof.
  intros ND L A. revert l L. induction A as [m u I K D|a b c A1 IH1 A2 IH2]; intros l L.
  - inversion L as [|mu l' I' K' L' E]; subst.
    assert (mu = m) as ->.
    { clear - ND I I' E. induction (methods item) as [|z ms IH]; [destruct I|].
      cbn in ND. inversion ND as [|? ? N ND']; subst. destruct I as [->|I], I' as [->|I']; auto.
      - exfalso. apply N. rewrite <- E. now apply in_map.
      - exfalso. apply N. rewrite E. now apply in_map. }
    rewrite D in L'. exists l'. split; [exact L'|cbn; lia].
  - destruct (IH1 _ L) as [l1 [L1 H1]]. destruct (IH2 _ L1) as [l2 [L2 H2]]. exists l2. split; [exact L2|lia].
Qed.
Lemma cycle_no_lineage item m : NoDup (map m_name (methods item)) -> cycle_over item m ->
  forall l, ~ lineage item (declared "state" "superstate" m) l.
Proof.
  intros ND (u & v & D & R & C) l L. rewrite D in L.
  assert (Q : exists l', lineage item (Some v) l').
  { destruct R as [<-|R]; [eauto|]. destruct (lineage_above ND L R) as [l' [L' _]]. eauto. }
  destruct Q as [l' L']. clear - ND C L'. remember (length l') as n eqn:En.
  revert l' L' En. induction n as [n IH] using lt_wf_ind. intros l' L' ->.
  destruct (lineage_above ND L' C) as [l2 [L2 H]]. exact (IH _ H _ L2 eq_refl).
Qed.

Section Extra.
  Variables Val Sh Ev Cx : Type.
  Variables (args : list meta) (item : item_impl) (g : generated) (c : config).
  Variables sms ums : list impl_fn.
  Hypothesis ND : NoDup (map m_name (methods item)).
  Hypothesis X : expanded args item g c sms ums.
  Hypothesis CO : compiles g.

  Theorem cycle_diverges (B : bodies Val Sh Ev Cx g) stack md
      (sm : state_machine (generated_machine B)) (cx : Cx) m :
    In m (methods item) -> marked "state" m = true -> cycle_over item m ->
    tag (sm_state sm) = variant_of m -> initialized sm = false ->
    a_out (@init_with_context (generated_machine B) stack md sm cx) = Abort Diverges.
  Proof.
    intros I K C T Hi.
    pose proof (@generated_follows Val Sh Ev Cx args item g c sms ums X CO B) as F.
    apply (@cyclic_init_diverges (generated_hierarchy g) _ F stack md sm cx Hi).
    intros l Hl. assert (J : In m sms) by (apply (in_sms X); auto).
    pose proof (@state_disc' Val args item g c sms ums X CO (sm_state sm) m J T) as E.
    destruct (@leaf_parent_spec args item g c sms ums X CO m _ E) as [P V].
    destruct (@chain_lineage args item g c sms ums X CO _ _ Hl V) as [L _].
    change (s_disc (generated_machine B) (sm_state sm)) with (discriminant (sm_state sm)) in L.
    rewrite P in L. exact (cycle_no_lineage ND C L).
  Qed.

  (** ** Modes *)
  Lemma any_async_spec : any_async item = true <->
    exists m, In m (methods item) /\ m_async m = true /\
      (marked "state" m = true \/ marked "superstate" m = true \/ marked "action" m = true).
  Proof.
    unfold any_async. rewrite !orb_true_iff, !existsb_exists. split.
    - intros [[H|H]|H]; destruct H as [m [I A]]; apply filter_In in I; exists m; tauto.
    - intros (m & I & A & [K|[K|K]]); [left; left|left; right|right]; exists m;
        (split; [now apply filter_In|exact A]).
  Qed.
  Lemma mode_spec : g_mode g = MAwaitable <->
    exists m, In m (methods item) /\ m_async m = true /\
      (marked "state" m = true \/ marked "superstate" m = true \/ marked "action" m = true).
  Proof.
    rewrite <- any_async_spec, (ex_mode X). destruct (any_async item); split; congruence.
  Qed.
  Lemma find_method_spec kind i m : find_method item kind i = Some m ->
    In m (methods item) /\ marked kind m = true /\ m_name m = i.
  Proof. intros F. exact (find_method_in item _ _ F). Qed.

  (** ** Hooks *)
  Lemma hook_code_runs (B : bodies Val Sh Ev Cx g) hook run sh :
    run_hook B (codegen_hook (g_mode g) hook) run sh =
    match hook with
    | None => (Returns tt, sh)
    | Some p => if any_async item || negb (b_async B p) then run p sh else (Returns tt, sh)
    end.
  Proof.
    rewrite (ex_mode X). destruct hook as [p|]; [|reflexivity].
    destruct (any_async item); cbn; [reflexivity|]. destruct (b_async B p); reflexivity.
  Qed.
  Lemma hooks_run (B : bodies Val Sh Ev Cx g) sh :
    (forall n e, h_before_dispatch (generated_machine B) sh n e =
       match last_value as_path "before_dispatch" args with
       | None => (Returns tt, sh)
       | Some p => if any_async item || negb (b_async B p) then b_dispatch_hook B p sh n e else (Returns tt, sh)
       end) /\
    (forall n e, h_after_dispatch (generated_machine B) sh n e =
       match last_value as_path "after_dispatch" args with
       | None => (Returns tt, sh)
       | Some p => if any_async item || negb (b_async B p) then b_dispatch_hook B p sh n e else (Returns tt, sh)
       end) /\
    (forall a b, h_before_transition (generated_machine B) sh a b =
       match last_value as_path "before_transition" args with
       | None => (Returns tt, sh)
       | Some p => if any_async item || negb (b_async B p) then b_transition_hook B p sh a b else (Returns tt, sh)
       end) /\
    (forall a b, h_after_transition (generated_machine B) sh a b =
       match last_value as_path "after_transition" args with
       | None => (Returns tt, sh)
       | Some p => if any_async item || negb (b_async B p) then b_transition_hook B p sh a b else (Returns tt, sh)
       end).
  Proof.
    destruct (ex_hooks X) as (H1 & H2 & H3 & H4). pose proof (config_spec _ _ (ex_config X)) as CF.
    rewrite <- (cf_bt CF), <- (cf_at CF), <- (cf_bd CF), <- (cf_ad CF).
    cbn [generated_machine h_before_dispatch h_after_dispatch h_before_transition h_after_transition].
    rewrite H1, H2, H3, H4.
    split; [|split; [|split]]; intros; apply hook_code_runs.
  Qed.
End Extra.
