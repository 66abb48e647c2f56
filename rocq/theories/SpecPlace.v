(** Vocabulary for the scalars and array items at every depth of a structure.
    No proofs. *)

From Coq Require Import Arith NArith List.
From Verif Require Import Base Bits Schema Codec Compiler Access SpecStruct Place.
Import ListNotations.
Local Open Scope N_scope.

(** The bits of a place: [at_place s path item o w] is a scalar, or item [item]
    of an array, that takes the [w] bits from bit [o] of the structure. The
    offset of a field is the total width of the fields before it, and the items
    of an array follow one another. An item fits the type of its values (arrays
    of booleans of more than 8 bits do not). *)
Inductive at_place : structure -> list nat -> option N -> N -> N -> Prop :=
| at_scalar : forall s i f, nth_error (s_fields s) i = Some (FFixed f) ->
    at_place s [i] None (total_bits (firstn i (s_fields s))) (l_bit_size (ff_loc f))
| at_item : forall s i f n b, nth_error (s_fields s) i = Some (FArray f) -> n < fa_array_len f ->
    l_bit_size (fa_loc f) = b * fa_array_len f -> b <= 8 * N.of_nat (get_byte_size (fa_ty f)) ->
    at_place s [i] (Some n) (total_bits (firstn i (s_fields s)) + b * n) b
| at_inside : forall s i name r loc rest item o w, nth_error (s_fields s) i = Some (FStruct name r loc) ->
    at_place r rest item o w ->
    at_place s (i :: rest) item (total_bits (firstn i (s_fields s)) + o) w.

(** The accessors can reach the place: all structures on the way start on a byte
    boundary, and so do items, which are whole bytes. *)
Definition reachable (s : structure) (p : place) (o w : N) : Prop :=
  at_place s (pl_path p) (pl_item p) o w /\ path_bytes_aligned s (pl_path p) /\ 0 < w <= 64 /\ addressable o w /\
  match pl_item p with Some _ => w mod 8 = 0 | None => True end.

Definition same_place (p q : place) : {p = q} + {p <> q}.
Proof. decide equality; [decide equality; apply N.eq_dec|apply (list_eq_dec Nat.eq_dec)]. Defined.
(** The last value written to a place, if any. *)
Fixpoint last_written (h : list (place * N)) (p : place) : option N :=
  match h with
  | [] => None
  | (q, v) :: rest =>
      match last_written rest p with
      | Some x => Some x
      | None => if same_place q p then Some v else None
      end
  end.

(** Scalars have 1 to 64 bits and array items fit the type of their values, at
    every depth. (All structures that the compiler accepts are usual except those
    with booleans of 0 or more than 8 bits or with arrays of length 0.) *)
Inductive usual : structure -> Prop :=
| usual_intro : forall s,
    (forall i f, nth_error (s_fields s) i = Some (FFixed f) -> 0 < l_bit_size (ff_loc f) <= 64) ->
    (forall i f, nth_error (s_fields s) i = Some (FArray f) ->
       exists b, l_bit_size (fa_loc f) = b * fa_array_len f /\ 0 < b <= 8 * N.of_nat (get_byte_size (fa_ty f))) ->
    (forall i name r loc, nth_error (s_fields s) i = Some (FStruct name r loc) -> usual r) -> usual s.
