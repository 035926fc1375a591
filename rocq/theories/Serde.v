(** Serde.v — model of the serde implementations: {blocking,awaitable}/inner.rs:92-239
    [96-243] and the ones of the machine types in {blocking,awaitable}/state_machine.rs (same
    text in both modes).  No proofs here.

    The serde data model is reduced to what these implementations use.  Simplifications: a
    format is characterised by how it lays out a struct; `serialize_struct` is given the
    already serialized fields; the user's `Serialize`/`Deserialize` implementations are
    functions to and from [data] that may fail. *)

From Coq Require Import List Bool Arith String.
From Verif Require Import Machine Api.
Import ListNotations.
Set Implicit Arguments.
Local Open Scope string_scope.

(** Field identifiers as a format may present them to a `Visitor`: through `visit_str`,
    `visit_u64` or `visit_bytes`. *)
Inductive key := KStr (s : string) | KIndex (n : nat) | KBytes (s : string).

(** Serialized data.  [DAtom]: everything that is neither a sequence nor a map; [DStruct]: a
    map that records the name of its struct type (RON). *)
Inductive data :=
| DAtom (n : nat)
| DSeq (l : list data)
| DMap (l : list (key * data))
| DStruct (name : string) (l : list (key * data)).

(** serde::de::Error constructors, and errors of the format and of the user's types. *)
Inductive error :=
| InvalidLength (n : nat)
| DuplicateField (f : string)
| MissingField (f : string)
| UnknownField (f : string)
| InvalidType
| ExpectedStruct (name : string)
| TrailingData
| UserError (n : nat).

Inductive result (A : Type) := Ok (a : A) | Err (e : error).
Arguments Ok {A}.
Arguments Err {A}.

(** `?` *)
Definition try {A B} (r : result A) (k : A -> result B) : result B :=
  match r with Ok a => k a | Err e => Err e end.

(** How a format lays out structs: as maps with field names (JSON, TOML), the same
    preceded by the name of the struct (RON), field indices (packed CBOR) or raw bytes as keys, or as sequences of the fields (bincode,
    postcard, JSON arrays).  [strict]: reading a struct from a sequence with elements left
    over is an error. *)
Inductive layout := Named | Tagged | Indexed | AsBytes | Positional.
Record format := Format { layout_of : layout; strict : bool }.

Definition struct_key (f : format) (i : nat) (name : string) : key :=
  match layout_of f with
  | Indexed => KIndex i
  | AsBytes => KBytes name
  | _ => KStr name
  end.
Fixpoint keyed (f : format) (i : nat) (fields : list (string * data)) : list (key * data) :=
  match fields with
  | [] => []
  | (name, d) :: rest => (struct_key f i name, d) :: keyed f (S i) rest
  end.
(** `Serializer::serialize_struct(name, ..)` ... `end`. *)
Definition struct_data (f : format) (name : string) (fields : list (string * data)) : data :=
  match layout_of f with
  | Positional => DSeq (map snd fields)
  | Tagged => DStruct name (keyed f 0 fields)
  | _ => DMap (keyed f 0 fields)
  end.

(** inner.rs:120-123 — `enum Field`. *)
Inductive field := SharedStorage | StateField.
(** inner.rs:125-156 — `impl Deserialize for Field`: only `visit_str` is implemented; the
    default methods of `Visitor` reject everything else. *)
Definition field_of_key (k : key) : result field :=
  match k with
  | KStr s =>
      if string_dec s "shared_storage" then Ok SharedStorage
      else if string_dec s "state" then Ok StateField
      else Err (UnknownField s)
  | KIndex _ => Err InvalidType
  | KBytes _ => Err InvalidType
  end.

Section Serde.
  Variable m : machine.
  Variable ser_shared : Shared m -> result data.
  Variable ser_state : State m -> result data.
  Variable de_shared : data -> result (Shared m).
  Variable de_state : data -> result (State m).
  Variable f : format.

  (** inner.rs:92-108 — `Serialize for Inner`. *)
  Definition ser_inner (i : inner m) : result data :=
    try (ser_shared (shared_storage i)) (fun d1 =>
    try (ser_state (state i)) (fun d2 =>
    Ok (struct_data f "StateMachine" [("shared_storage", d1); ("state", d2)]))).

  (** inner.rs:171-189 — `visit_seq`; the format then checks for left-over elements. *)
  Definition visit_seq (l : list data) : result (inner m) :=
    match l with
    | [] => Err (InvalidLength 0)
    | d1 :: l1 =>
        try (de_shared d1) (fun sh =>
        match l1 with
        | [] => Err (InvalidLength 1)
        | d2 :: l2 =>
            try (de_state d2) (fun s =>
            if strict f && negb (match l2 with [] => true | _ => false end)
            then Err TrailingData
            else Ok (Inner sh s))
        end)
    end.

  (** inner.rs:191-223 — `visit_map`. *)
  Fixpoint visit_map (l : list (key * data)) (sh : option (Shared m)) (s : option (State m))
    : result (inner m) :=
    match l with
    | [] =>
        match sh with
        | None => Err (MissingField "shared_storage")
        | Some sh' =>
            match s with
            | None => Err (MissingField "state")
            | Some s' => Ok (Inner sh' s')
            end
        end
    | (k, d) :: l' =>
        try (field_of_key k) (fun fd =>
        match fd with
        | SharedStorage =>
            match sh with
            | Some _ => Err (DuplicateField "shared_storage")
            | None => try (de_shared d) (fun v => visit_map l' (Some v) s)
            end
        | StateField =>
            match s with
            | Some _ => Err (DuplicateField "state")
            | None => try (de_state d) (fun v => visit_map l' sh (Some v))
            end
        end)
    end.

  (** inner.rs:110-239 — `Deserialize for Inner`: `deserialize_struct("StateMachine",
      ..)` with the visitor; a format that records struct names checks them. *)
  Definition de_inner (d : data) : result (inner m) :=
    match d with
    | DSeq l => visit_seq l
    | DMap l => visit_map l None None
    | DStruct name l =>
        if string_dec name "StateMachine" then visit_map l None None
        else Err (ExpectedStruct "StateMachine")
    | DAtom _ => Err InvalidType
    end.

  (** state_machine.rs:264-279 [270-285] — `Serialize for StateMachine`. *)
  Definition ser_sm (sm : state_machine m) : result data := ser_inner (sm_inner sm).
  (** :281-300 [287-306] — `Deserialize for StateMachine`. *)
  Definition de_sm (d : data) : result (state_machine m) :=
    try (de_inner d) (fun i => Ok (StateMachine i false)).
  (** :514-530 [526-542] — `Serialize for InitializedStateMachine` (no `Deserialize`). *)
  Definition ser_im (im : initialized_machine m) : result data :=
    try (ser_shared (shared_storage (im_inner im))) (fun d1 =>
    try (ser_state (state (im_inner im))) (fun d2 =>
    Ok (struct_data f "StateMachine" [("shared_storage", d1); ("state", d2)]))).
  (** :765-780 [783-798] — `Serialize for UninitializedStateMachine`; :782-797 [800-815] —
      `Deserialize`. *)
  Definition ser_um (um : uninitialized_machine m) : result data := ser_inner (um_inner um).
  Definition de_um (d : data) : result (uninitialized_machine m) :=
    try (de_inner d) (fun i => Ok (UninitializedMachine i)).

  (** The user's types round-trip. *)
  Definition round_trips : Prop :=
    (forall v d, ser_shared v = Ok d -> de_shared d = Ok v) /\
    (forall v d, ser_state v = Ok d -> de_state d = Ok v).

  (** The fields of a struct, as a reader of the data would list them. *)
  Definition complete_fields (l : list (key * data)) (d1 d2 : data) : Prop :=
    l = [(KStr "shared_storage", d1); (KStr "state", d2)] \/
    l = [(KStr "state", d2); (KStr "shared_storage", d1)].

  (** How often a field name occurs. *)
  Definition occurrences (name : string) (l : list (key * data)) : nat :=
    List.length (filter (fun kd => match fst kd with
                              | KStr s => if string_dec s name then true else false
                              | _ => false end) l).

  (** Every entry of [l] is a known field, named once at most, whose value can be read. *)
  Definition readable (l : list (key * data)) : Prop :=
    (forall k d, In (k, d) l ->
       (k = KStr "shared_storage" /\ exists v, de_shared d = Ok v) \/
       (k = KStr "state" /\ exists v, de_state d = Ok v)) /\
    occurrences "shared_storage" l <= 1 /\ occurrences "state" l <= 1.
End Serde.

Arguments ser_inner : clear implicits.
Arguments ser_sm : clear implicits.
Arguments ser_im : clear implicits.
Arguments ser_um : clear implicits.
