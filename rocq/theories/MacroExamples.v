(** MacroExamples.v — a concrete impl block, its expansion, and the generated machine. *)

From Coq Require Import String Ascii List Bool Arith Lia Permutation.
From Verif Require Import Machine Spec.
From Verif Require Import MacroSyntax MacroVisit MacroAnalyze MacroLower MacroGen MacroSem MacroSpec.
Import ListNotations.
Open Scope string_scope.
Open Scope list_scope.

(** Two iteration orders. *)
Definition forward : order := Order (fun T m => m) (fun T m => Permutation_refl m).
Definition backward : order := Order (fun T m => rev m) (fun T m => Permutation_rev m).
Definition all_forward : orders := Orders forward forward forward forward forward.
Definition all_backward : orders := Orders backward backward backward backward backward.

(** Building source. *)
Definition text (s : string) : lit_str :=
  LitStr (Some s) (Some (Expr s)) (Some [s]) (Some s) None.
Definition storage_text (f : field) : lit_str := LitStr None None None None (Some f).
Definition set_to (key value : string) : meta := MetaNameValue [key] (VStr (text value)).
Definition with_args (key : string) (l : list meta) : meta := MetaList [key] (Tokens (Some l) None None).
Definition with_strings (key : string) (l : list lit_str) : meta := MetaList [key] (Tokens None (Some l) None).
Definition named_type (s : string) : ty := TPath [s] [].
Definition by_ref (name : string) (t : ty) : fn_arg :=
  Typed (PatType [] (PatIdent name) (TReference None true t)).
Definition by_ref_default (name : string) (d : meta) (t : ty) : fn_arg :=
  Typed (PatType [d] (PatIdent name) (TReference None true t)).
Definition method (attrs : list meta) (name : string) (inputs : list fn_arg) : impl_fn :=
  ImplFn attrs name [] false inputs.
Definition event_param : fn_arg := by_ref "event" (named_type "Event").
Definition context_param' : fn_arg := by_ref "context" (named_type "Context").

(** <<
    #[state_machine(initial = "State::led_on(0)", before_transition = "Self::log")]
    impl Blinky {
        #[state(superstate = "blinking", entry_action = "enter_led_on")]
        fn led_on(&mut self, #[default] led: &mut bool, count: &mut u8, event: &Event) -> ..
        #[state(superstate = "blinking")]
        fn led_off(led: &mut bool, event: &Event) -> ..
        #[state(exit_action = "leave", local_storage("extra: u8"))]
        fn not_blinking(event: &Event, context: &mut Context) -> ..
        #[superstate(superstate = "top")]
        fn blinking(&mut self, led: &mut bool, event: &Event) -> ..
        #[superstate]
        fn top() -> ..
        #[action]
        fn enter_led_on(count: &mut u8, led: &mut bool, context: &mut Context)
        #[action]
        fn leave(&mut self)
    }
    >> *)
Definition led_on : impl_fn :=
  method [with_args "state" [set_to "superstate" "blinking"; set_to "entry_action" "enter_led_on"]] "led_on"
    [Receiver; by_ref_default "led" (MetaPath ["default"]) (named_type "bool"); by_ref "count" (named_type "u8");
     event_param].
Definition led_off : impl_fn :=
  method [with_args "state" [set_to "superstate" "blinking"]] "led_off"
    [by_ref "led" (named_type "bool"); event_param].
Definition not_blinking : impl_fn :=
  method [with_args "state" [set_to "exit_action" "leave";
            with_strings "local_storage" [storage_text (Field "extra" (named_type "u8"))]]] "not_blinking"
    [event_param; context_param'].
Definition blinking : impl_fn :=
  method [with_args "superstate" [set_to "superstate" "top"]] "blinking"
    [Receiver; by_ref "led" (named_type "bool"); event_param].
Definition top : impl_fn := method [MetaPath ["superstate"]] "top" [].
Definition enter_led_on : impl_fn :=
  method [MetaPath ["action"]] "enter_led_on"
    [by_ref "count" (named_type "u8"); by_ref "led" (named_type "bool"); context_param'].
Definition leave : impl_fn := method [MetaPath ["action"]] "leave" [Receiver].
Definition log : impl_fn := method [] "log" [Receiver].

Definition impl_of (ms : list impl_fn) : item_impl :=
  ItemImpl (named_type "Blinky") (Generics [] []) (map ItemMethod ms).
Definition blinky : item_impl :=
  impl_of [led_on; led_off; not_blinking; blinking; top; enter_led_on; leave; log].
Definition blinky_args : list meta :=
  [set_to "initial" "State::led_on(0)"; set_to "before_transition" "Self::log"].

Definition no_output : generated :=
  Generated (impl_of []) MBlocking unit_type unit_type (Expr "") NoHook NoHook NoHook NoHook "" "" [] [] [] []
            (Arms [] [] [] []) "" [] [] [] (Arms [] [] [] []) "" "".
Definition output (e : expansion generated) : generated := match e with Done g => g | _ => no_output end.
Definition blinky_code : generated := Eval vm_compute in output (expand all_forward blinky_args blinky).
Lemma blinky_expands : expand all_forward blinky_args blinky = Done blinky_code.
Proof. vm_compute. reflexivity. Qed.

(** Deciding [compiles]. *)
Definition inb (i : ident) (l : list ident) : bool := existsb (String.eqb i) l.
Fixpoint nodupb (l : list ident) : bool :=
  match l with [] => true | a :: r => negb (inb a r) && nodupb r end.
Definition async_methodb (g : generated) (f : ident) (b : bool) : bool :=
  existsb (fun m => (m_name m =? f)%string && Bool.eqb (m_async m) b) (methods (g_impl g)).
Definition call_okb (g : generated) (p : pattern) (has_event : bool) (c : code) : bool :=
  match c with
  | EmptyBlock => true
  | Call _ f args awaited =>
      forallb (fun i => inb i (p_fields p) || (i =? "shared_storage")%string ||
                        (has_event && (i =? g_event_ident g)%string) || (i =? g_context_ident g)%string) args &&
      nodupb args && async_methodb g f awaited
  end.
Definition arms_okb (g : generated) (a : arms) : bool :=
  forallb (fun pc => call_okb g (fst pc) true (snd pc)) (call_handler_arms a) &&
  forallb (fun pc => call_okb g (fst pc) false (snd pc)) (call_entry_action_arms a) &&
  forallb (fun pc => call_okb g (fst pc) false (snd pc)) (call_exit_action_arms a) &&
  forallb (fun pq => match snd pq with
                     | Some q => forallb (fun i => inb i (p_fields (fst pq))) (p_fields q)
                     | None => true
                     end) (superstate_arms a).
Definition compilesb (g : generated) : bool :=
  nodupb (map m_name (methods (g_impl g))) && nodupb (map v_name (g_state_variants g)) &&
  nodupb (map v_name (g_super_variants g)) &&
  forallb (fun v => nodupb (map f_name (v_fields v))) (all_variants g) &&
  nodupb ["shared_storage"; g_event_ident g; g_context_ident g] &&
  arms_okb g (g_state_arms g) && arms_okb g (g_super_arms g).

Lemma nodupb_ok l : nodupb l = true -> NoDup l.
Proof.
  induction l as [|a l IH]; cbn; [constructor|]. rewrite andb_true_iff, negb_true_iff. intros [H1 H2].
  constructor; [|auto]. intros I. enough (inb a l = true) by congruence.
  apply existsb_exists. exists a. split; [exact I|apply String.eqb_refl].
Qed.
Lemma inb_ok i l : inb i l = true -> In i l.
Proof. intros H. apply existsb_exists in H. destruct H as [x [I E]]. apply String.eqb_eq in E. now subst. Qed.
Lemma call_okb_ok g p b c : call_okb g p b c = true -> call_ok g p b c.
Proof.
  destruct c as [|t f args aw]; cbn; [auto|]. rewrite !andb_true_iff, forallb_forall. intros [[H1 H2] H3].
  split; [|split].
  - intros i I. specialize (H1 i I). rewrite !orb_true_iff, andb_true_iff, !String.eqb_eq in H1.
    destruct H1 as [[[H|H]|[H ?]]|H]; [left; now apply inb_ok|auto|auto|auto].
  - now apply nodupb_ok.
  - apply existsb_exists in H3. destruct H3 as [m [I E]]. rewrite andb_true_iff, String.eqb_eq, Bool.eqb_true_iff in E.
    exists m. tauto.
Qed.
Lemma arms_okb_ok g a : arms_okb g a = true -> arms_ok g a.
Proof.
  unfold arms_okb. rewrite !andb_true_iff, !forallb_forall. intros [[[H1 H2] H3] H4].
  split; [|split; [|split]].
  - intros p c I. apply call_okb_ok. exact (H1 (p, c) I).
  - intros p c I. apply call_okb_ok. exact (H2 (p, c) I).
  - intros p c I. apply call_okb_ok. exact (H3 (p, c) I).
  - intros p q I i J. specialize (H4 (p, Some q) I). cbn in H4. rewrite forallb_forall in H4.
    apply inb_ok. auto.
Qed.
Lemma compilesb_ok g : compilesb g = true -> compiles g.
Proof.
  unfold compilesb. rewrite !andb_true_iff, forallb_forall. intros [[[[[[H1 H2] H3] H4] H5] H6] H7].
  constructor; auto using nodupb_ok, arms_okb_ok.
Qed.
(** Deciding [hygienic]. *)
Definition named_by (f : ident) (p : fn_arg) : bool :=
  match p with
  | Typed pt => match pt_pat pt with PatIdent i => (i =? f)%string | _ => false end
  | Receiver => false
  end.
Definition hygienicb (item : item_impl) (g : generated) : bool :=
  forallb (fun v => forallb (fun f => negb (inb (f_name f) ["shared_storage"; g_event_ident g; g_context_ident g]))
                            (v_fields v)) (all_variants g) &&
  forallb (fun m => forallb (fun p => negb (named_by "shared_storage" p)) (m_inputs m)) (methods item).
Lemma hygienicb_ok item g : hygienicb item g = true -> hygienic item g.
Proof.
  unfold hygienicb. rewrite andb_true_iff, !forallb_forall. intros [H1 H2]. constructor.
  - intros v f Iv If. specialize (H1 v Iv). rewrite forallb_forall in H1. specialize (H1 f If).
    cbn in H1. rewrite !negb_true_iff, !orb_false_iff, !String.eqb_neq in H1. tauto.
  - intros m p Im Ip [pt [-> P]]. specialize (H2 m Im). rewrite forallb_forall in H2. specialize (H2 _ Ip).
    cbn in H2. rewrite P in H2. discriminate.
Qed.

Lemma blinky_compiles : compiles blinky_code.
Proof. apply compilesb_ok. vm_compute. reflexivity. Qed.
Lemma blinky_hygienic : hygienic blinky blinky_code.
Proof. apply hygienicb_ok. vm_compute. reflexivity. Qed.
Lemma blinky_acyclic : acyclic blinky.
Proof.
  exists (fun i => if (i =? "top")%string then 1 else 0).
  intros m u I K D. cbn in I.
  repeat (destruct I as [<-|I]; [vm_compute in K; try discriminate; vm_compute in D; try discriminate;
                                  injection D as <-; vm_compute; lia|]).
  destruct I.
Qed.

(** Bodies: numbers as field values, shared storage, events and context. *)
Notation barg := (arg nat nat nat nat).
Definition bump (a : barg) : barg :=
  match a with
  | AShared n => AShared (S n)
  | AField n => AField (10 + n)
  | AContext n => AContext (100 + n)
  | AEvent n => AEvent n
  end.
Definition a_value (g : generated) (n : ident) (vs : list nat) (d : value nat (g_state_variants g)) :=
  match make (g_state_variants g) n vs with Some v => v | None => d end.
Definition first_state : value nat (g_state_variants blinky_code).
Proof. refine (Value (g_state_variants blinky_code) "LedOn" [0; 0] _). vm_compute. reflexivity. Defined.
Definition blinky_bodies : bodies nat nat nat nat blinky_code := {|
  b_handler := fun f args => (Returns (if (f =? "top")%string
                                       then Transition (a_value blinky_code "NotBlinking" [7] first_state)
                                       else Super), map bump args);
  b_action := fun f args => (Returns tt, map bump args);
  b_dispatch_hook := fun p sh n e => (Returns tt, sh);
  b_transition_hook := fun p sh a b => (Returns tt, 1000 + sh);
  b_async := fun p => false;
  b_initial := fun e => first_state
|}.
