(** Specification vocabulary: a run of the compiler over several protocols, and
    the state in which code is generated. *)

From Coq Require Import Arith NArith String List Bool.
From Verif Require Import Base Schema Compiler Access SpecStruct SpecWire Loader.
Import ListNotations.
Local Open Scope N_scope.

(** The protocols compiled so far, in order, each importing only from earlier
    ones. *)
Inductive session (m : mode) : world -> list protocol -> Prop :=
| session_nil : session m world_new []
| session_step : forall w ps solver v p w', session m w ps ->
    (forall name q, r_protocol solver name = Some q -> In q ps) ->
    protocol_from_model m solver w v = Ok (p, w') ->
    session m w' (ps ++ [p]).

(** [Message::is_embedded] in that state. *)
Definition marked (w : world) (id : N) : bool := existsb (N.eqb id) (w_embedded w).

(** Layout arithmetic did not wrap around: always so when the compiler was
    built with overflow checks. *)
Definition sizes_fit (m : mode) (ps : list protocol) : Prop :=
  m = Debug \/ forall p s, In p ps -> In s (p_structs p) ->
    exists structs n, built m structs /\ sget n structs = Some s.

(** Fields that select the case of a union are not optional, and the scalar that
    holds the number of the case has 1 to 64 bits. *)
Definition union_fields_usable (x : message) : Prop :=
  forall y f u on i, within x y -> In f (m_fields y) -> mf_ty f = TUnion u on i ->
    (forall g, nth_error (m_fields y) i = Some g -> mf_optional g = false) /\
    exists o w, path_at (d_root (u_disc u)) (d_index_list (u_disc u)) o w /\ 0 < w <= 64.

(** Every message used as the item of a list is marked. *)
Definition items_marked (emb : N -> bool) (x : message) : Prop :=
  forall y f ty z, within x y -> In f (m_fields y) -> mf_ty f = TList ty z -> emb (m_id z) = true.

(** [x] itself has a list. *)
Definition has_list (x : message) : Prop := exists f ty y, In f (m_fields x) /\ mf_ty f = TList ty y.
(** The readers of the messages of [p] are generated in the state [w]. What [emb] says about
    other messages is open: the code of imported messages is generated by other runs of the
    compiler, as a run only generates the protocols it loads (compiler/src/interface.rs:65-74). *)
Definition generated_in (w : world) (p : protocol) (emb : N -> bool) : Prop :=
  forall x, In x (p_messages p) -> emb (m_id x) = marked w (m_id x).
