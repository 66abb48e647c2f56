(** Vocabulary for histories of setter calls. No proofs. *)

From Coq Require Import Arith NArith ZArith List.
From Verif Require Import Base Schema Codec Compiler Access SpecStruct Place SpecPlace Calls.
Import ListNotations.
Local Open Scope N_scope.

(** The place that a call sets. *)
Definition target (c : call) : place :=
  match c with CRaw p _ => p | CView path _ => {| pl_path := path; pl_item := None |} end.
(** The last call that sets a place, if any. *)
Fixpoint last_call (h : list call) (p : place) : option call :=
  match h with
  | [] => None
  | c :: rest =>
      match last_call rest p with
      | Some x => Some x
      | None => if same_place (target c) p then Some c else None
      end
  end.
(** What a getter gives after the one call, or without any. *)
Definition after {E A} (m : mode) (s : structure) (c : option call) (data : bytes) (get : bytes -> outcome E A) : outcome E A :=
  match c with Some c => data' <- make_call m s c data ;; get data' | None => get data end.

(** The scalar field at the end of a chain of accessors. *)
Inductive scalar_at : structure -> list nat -> fixed_field -> Prop :=
| sc_here : forall s i f, nth_error (s_fields s) i = Some (FFixed f) -> scalar_at s [i] f
| sc_in : forall s i name r loc rest f, nth_error (s_fields s) i = Some (FStruct name r loc) -> scalar_at r rest f -> scalar_at s (i :: rest) f.
(** The values that a scalar of [w] bits can hold: integers of [w] bits, signed
    or not, booleans, bit patterns of floats, and the numbers of an enumeration.
    (Fields with a scale are in C09 and C94 to C97: they round.) *)
Definition representable (f : fixed_field) (x : vval) : Prop :=
  let w := l_bit_size (ff_loc f) in
  match ff_view f, ff_ty f, x with
  | VNone, _, XInt z => (0 <= z < 2 ^ Z.of_N w)%Z
  | (VTransmute | VSignedCast _), (I8 | I16 | I32 | I64), XInt z => (- 2 ^ (Z.of_N w - 1) <= z < 2 ^ (Z.of_N w - 1))%Z
  | VTransmute, FBool, XBool _ => True
  | VTransmute, (F32 | F64), XFloatBits n => n < 2 ^ w
  | VEnum e, _, XEnum (Some n) => n <= e_largest e /\ n < 2 ^ w
  | _, _, _ => False
  end.
