(** Specification vocabulary for structures, in terms of the description a
    user writes: which bits of the structure a field occupies. *)

From Coq Require Import Arith NArith ZArith String List Bool.
From Verif Require Import Base Schema Compiler Access.
Import ListNotations.
Local Open Scope N_scope.

(** Width in bits of a described field: declared width times array length, or
    the size of the structure it refers to. *)
Definition declared_bits (structs : smap structure) (d : sfield) : option N :=
  match sf_info d with
  | STStruct n => match sget n structs with Some r => Some (s_bit_size r) | None => None end
  | STSigned b | STUnsigned b | STFloat b | STBoolean b =>
      Some (b * match sf_array_len d with Some n => n | None => 1 end)
  end.

(** Sum of the widths of a list of described fields. *)
Fixpoint declared_total (structs : smap structure) (l : list sfield) : option N :=
  match l with
  | [] => Some 0
  | d :: r =>
      match declared_bits structs d, declared_total structs r with
      | Some w, Some t => Some (w + t)
      | _, _ => None
      end
  end.

(** Field number [i] of the description [d] occupies the [w] bits from bit [o]:
    [o] is the total width of the fields before it. *)
Definition declared_at (structs : smap structure) (d : sstruct) (i : nat) (o w : N) : Prop :=
  declared_total structs (firstn i (ss_fields d)) = Some o /\
  exists f, nth_error (ss_fields d) i = Some f /\ declared_bits structs f = Some w.

(** [n] bits need [ceil8 n] bytes. *)
Definition ceil8 (n : N) : N := (n + 7) / 8.

(** The compiler addresses a field through the [ceil8 w] bytes starting at byte
    [o / 8], shifting only when [w] is not a multiple of 8. [addressable o w]
    says that this covers bits [o .. o+w). *)
Definition addressable (o w : N) : Prop :=
  if w mod 8 =? 0 then o mod 8 = 0 else o mod 8 + w <= 8 * ceil8 w.

(** The compiler's usize arithmetic on the layout cannot wrap: either the
    compiler is built with overflow checks, or the total is below 2^64. *)
Definition no_overflow (m : mode) (structs : smap structure) (d : sstruct) : Prop :=
  m = Debug \/ forall t, declared_total structs (ss_fields d) = Some t -> t < 2 ^ 64.

(** The big-endian bit codec shifts by 8 - w mod 8 - o mod 8, which is negative:
    a panic with overflow checks. *)
Definition shift_overflows (m : mode) (e : endianness) (o w : N) : Prop :=
  m = Debug /\ e = Big /\ 8 < o mod 8 + w mod 8.

(** Two's complement value of an [n]-bit number. *)
Definition twos_complement (n raw : N) : Z :=
  if raw <? 2 ^ (n - 1) then Z.of_N raw else (Z.of_N raw - 2 ^ Z.of_N n)%Z.

(** ** Histories *)

(** A sequence of raw setter calls on one structure: pairs of field index and value. *)
Definition history := list (nat * N).

(** The last value set on field [i], if any. *)
Fixpoint last_set (h : history) (i : nat) : option N :=
  match h with
  | [] => None
  | (k, v) :: r =>
      match last_set r i with
      | Some x => Some x
      | None => if Nat.eqb k i then Some v else None
      end
  end.

(** Run the calls of a history on a buffer; an index must name a scalar field. *)
Fixpoint run_history {E} (mr : mode) (s : structure) (h : history) (buf : bytes) : outcome E bytes :=
  match h with
  | [] => Ok buf
  | (i, v) :: r =>
      match nth_error (s_fields s) i with
      | Some (FFixed f) => b <- set_raw mr f buf v ;; run_history mr s r b
      | _ => Panic
      end
  end.

(** Field [i] is a scalar of 1 to 64 bits whose declared bits are addressable. *)
Definition good_field (structs : smap structure) (d : sstruct) (s : structure) (i : nat) : Prop :=
  exists f o w, nth_error (s_fields s) i = Some (FFixed f) /\ declared_at structs d i o w /\
    0 < w <= 64 /\ addressable o w.

(** ** Nested structures *)

(** Structure maps that arise by compiling descriptions one after the other
    (also from several protocols), without size overflow. *)
Inductive built (m : mode) : smap structure -> Prop :=
| built_nil : built m []
| built_def : forall enums visible id d s k others,
    built m visible ->
    structure_from_model m Little enums visible id d = Ok s ->
    no_overflow m visible d ->
    built m others ->
    built m (sinsert k s others).

(** Width in bits of a compiled field and of a list of them. *)
Definition field_bits (f : field) : N :=
  match f with
  | FFixed x => l_bit_size (ff_loc x)
  | FArray x => l_bit_size (fa_loc x)
  | FStruct _ r _ => s_bit_size r
  end.
Fixpoint total_bits (l : list field) : N :=
  match l with [] => 0 | f :: r => field_bits f + total_bits r end.

(** A chain of field accessors [a().b(). ... .c()] given by field indices,
    ending at a scalar; [path_at s path o w]: the scalar occupies the [w] bits
    from bit [o] of the outermost structure, where [o] adds the offsets of the
    chain and the offset of a field is the total width of those before it. *)
Inductive path_at : structure -> list nat -> N -> N -> Prop :=
| path_scalar : forall s i f,
    nth_error (s_fields s) i = Some (FFixed f) ->
    path_at s [i] (total_bits (firstn i (s_fields s))) (l_bit_size (ff_loc f))
| path_struct : forall s i n r loc rest o w,
    nth_error (s_fields s) i = Some (FStruct n r loc) ->
    path_at r rest o w ->
    path_at s (i :: rest) (total_bits (firstn i (s_fields s)) + o) w.

(** Every structure of the chain starts on a byte boundary of its parent. *)
Fixpoint path_bytes_aligned (s : structure) (path : list nat) : Prop :=
  match path with
  | [] => True
  | i :: rest =>
      match nth_error (s_fields s) i with
      | Some (FStruct _ r _) =>
          total_bits (firstn i (s_fields s)) mod 8 = 0 /\ path_bytes_aligned r rest
      | _ => True
      end
  end.

(** ** Views *)

(** [x] is the number of a variant of the described enum. *)
Definition declared_value (e : senum) (x : N) : Prop := In x (map snd (se_variants e)).

(** [v] is a value of the type that the view setter of [f] takes. *)
Definition view_value (f : fixed_field) (v : vval) : Prop :=
  match ff_view f, v with
  | VFloat _ _ _ _, XFloat _ => True
  | VEnum _, XEnum (Some _) => True
  | VNone, XInt z => (0 <= z)%Z
  | (VTransmute | VSignedCast _), _ =>
      match ff_ty f, v with
      | FBool, XBool _ => True
      | (F32 | F64), XFloatBits _ => True
      | (I8 | I16 | I32 | I64), XInt _ => True
      | _, _ => False
      end
  | _, _ => False
  end.
