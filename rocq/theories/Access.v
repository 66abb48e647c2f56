(** Meaning of the structure accessors emitted by the Rust generator:
    compiler/src/gen/base/structure.rs with compiler/src/gen/rust/util.rs,
    rust/structure.template and rust/structure.field.template.

    The generator is modelled in two steps: [gen_*] computes the parameters
    that are substituted into the templates (and panics where the generator
    panics), [ac_*] is the meaning of the resulting Rust code. That the text
    type-checks is not modelled; in particular the generator may emit a
    [transmute] between types of different sizes, which rustc rejects. *)

From Coq Require Import Arith NArith ZArith String List Bool Floats.SpecFloat.
From Verif Require Import Base Schema Codec Compiler.
Import ListNotations.
Local Open Scope N_scope.

(** gen/rust/util.rs:116-135 (all three codec selectors) *)
Definition order_of (e : endianness) : order := match e with Little => LE | Big => BE end.

(** The substituted parameters of the [fixed] fragments
    (structure.field.template:4-14 and 77-87). [ac_bit] is [Some (bit_offset,
    bit_size)] for the [bit] fragment, [None] for the [byte] fragment. *)
Record accessor := {
  ac_start : N;
  ac_end : N;
  ac_raw : nat;
  ac_bit : option (N * N);
  ac_aligned : bool;
  ac_order : order }.

(** gen/base/structure.rs:45-64 (getter) and 77-96 (setter): both compute the
    same parameters. [get_unsigned_integer_type] may panic.
    [ac_aligned]: gen/rust/util.rs:98-114. *)
Definition gen_fixed {E} (f : fixed_field) : outcome E accessor :=
  let loc := ff_loc f in
  raw <- get_unsigned_integer_type loc ;;
  let raw_size := get_byte_size raw in
  Ok {| ac_start := l_byte_offset loc;
        ac_end := l_byte_offset loc + l_byte_size loc;
        ac_raw := raw_size;
        ac_bit := if l_bit_size loc mod 8 =? 0 then None
                  else Some (l_bit_offset loc, l_bit_size loc);
        ac_aligned := N.of_nat raw_size =? l_byte_size loc;
        ac_order := order_of (ff_endianness f) |}.

Section Run.
Context {E : Type} (m : mode).

(** [get_raw_x] (structure.field.template:4-14) *)
Definition ac_get (a : accessor) (data : bytes) : outcome E N :=
  w <- slice data (ac_start a) (ac_end a) ;;
  match ac_bit a with
  | Some (bit_offset, bit_size) =>
      if ac_aligned a then bit_read_aligned m (ac_order a) (ac_raw a) bit_offset bit_size w
      else bit_read_unaligned m (ac_order a) (ac_raw a) bit_offset bit_size w
  | None =>
      if ac_aligned a then byte_read_aligned (ac_order a) (ac_raw a) w
      else byte_read_unaligned (ac_order a) (ac_raw a) w
  end.

(** [set_raw_x] (structure.field.template:77-87) *)
Definition ac_set (a : accessor) (data : bytes) (value : N) : outcome E bytes :=
  update_slice data (ac_start a) (ac_end a) (fun w =>
    match ac_bit a with
    | Some (bit_offset, bit_size) =>
        if ac_aligned a then bit_write_aligned m (ac_order a) (ac_raw a) bit_offset bit_size w value
        else bit_write_unaligned m (ac_order a) (ac_raw a) bit_offset bit_size w value
    | None =>
        if ac_aligned a then byte_write_aligned (ac_order a) (ac_raw a) w value
        else byte_write_unaligned (ac_order a) (ac_raw a) w value
    end).

(** The raw accessors of a scalar field: generate, then run. *)
Definition get_raw (f : fixed_field) (data : bytes) : outcome E N :=
  a <- gen_fixed f ;; ac_get a data.
Definition set_raw (f : fixed_field) (data : bytes) (value : N) : outcome E bytes :=
  a <- gen_fixed f ;; ac_set a data value.

(** ** Views *)

(** Values exchanged by the view accessors: integers, booleans, bit patterns
    of floats (for bit-cast float fields), floats (for float views), enum
    values given by their discriminant ([None] when the getter returns
    [None]). *)
Inductive vval :=
| XInt (z : Z)
| XBool (b : bool)
| XFloatBits (n : N)
| XFloat (x : spec_float)
| XEnum (n : option N).

(** Two's complement reading of an [sz]-byte unsigned value and back
    ([as] casts and [transmute] between uN and iN). *)
Definition as_signed (sz : nat) (n : N) : Z :=
  if n <? tmod sz / 2 then Z.of_N n else (Z.of_N n - Z.of_N (tmod sz))%Z.
Definition as_unsigned (sz : nat) (z : Z) : N := Z.to_N (z mod Z.of_N (tmod sz))%Z.

(** Negation of an iN: overflows on the minimum. *)
Definition neg_signed (sz : nat) (z : Z) : outcome E Z :=
  if (z =? - Z.of_N (tmod sz / 2))%Z then match m with Debug => Panic | Release => Ok z end
  else Ok (- z)%Z.

(** structure.field.template:56-65 [view_signed]; [!raw] and [+ 1] are taken
    at the raw type of [sz] bytes. *)
Definition signed_get (sz : nat) (max_positive raw : N) : outcome E Z :=
  if max_positive <? raw then
    let x := N.land (tmod sz - 1 - raw) max_positive in
    y <- (if x + 1 <? tmod sz then Ok (x + 1) else overflow m ((x + 1) mod tmod sz)) ;;
    neg_signed sz (as_signed sz y)
  else Ok (as_signed sz (N.land raw max_positive)).

(** Float formats of the view type: f32 or f64. *)
Definition fprec (t : fixed_type) : Z * Z := match t with F32 => (24, 128)%Z | _ => (53, 1024)%Z end.
Definition f_of_N (t : fixed_type) (n : N) : spec_float :=
  let '(prec, emax) := fprec t in
  match n with N0 => S754_zero false | Npos p => binary_normalize prec emax (Zpos p) 0 false end.
(** A parameter is printed as an f64 in decimal ([format!("{:?}")],
    gen/base/structure.rs:112, 136) and read back by rustc at the view type:
    for f64 this is the same value, for f32 it is modelled as rounding the f64
    (simplification: the decimal text is not modelled). *)
Definition f_literal (t : fixed_type) (x : f64) : spec_float :=
  let '(prec, emax) := fprec t in
  match x with
  | S754_finite s p e => binary_normalize prec emax (if s then Zneg p else Zpos p) e s
  | _ => x
  end.
Definition f_mul (t : fixed_type) := let '(prec, emax) := fprec t in SFmul prec emax.
Definition f_add (t : fixed_type) := let '(prec, emax) := fprec t in SFadd prec emax.
(** [x as uN]: saturating, NaN gives 0. *)
Definition f_as_unsigned (sz : nat) (x : spec_float) : N :=
  match x with
  | S754_zero _ | S754_nan => 0
  | S754_infinity s => if s then 0 else tmod sz - 1
  | S754_finite true _ _ => 0
  | S754_finite false p e =>
      let n := match e with
               | Z0 => Npos p
               | Zpos k => N.shiftl (Npos p) (Npos k)
               | Zneg k => N.shiftr (Npos p) (Npos k)
               end in
      N.min n (tmod sz - 1)
  end.

(** structure.field.template:25-30 [view_float] getter, 98-104 setter. *)
Definition float_get (t : fixed_type) (a b : f64) (raw : N) : spec_float :=
  f_add t (f_mul t (f_of_N t raw) (f_literal t a)) (f_literal t b).
Definition float_set (t : fixed_type) (sz : nat) (a_inv b_inv : f64) (value : spec_float) : N :=
  f_as_unsigned sz (f_add t (f_mul t value (f_literal t a_inv)) (f_literal t b_inv)).

(** [get_x] from the raw value (gen/base/structure.rs:108-130). An enum value
    obtained by [transmute] is represented by its number, declared or not. *)
Definition view_get (f : fixed_field) (sz : nat) (raw : N) : outcome E vval :=
  match ff_view f with
  | VFloat a b _ _ => Ok (XFloat (float_get (ff_ty f) a b raw))
  | VEnum e => Ok (XEnum (if e_largest e <? raw then None else Some raw))
  | VTransmute =>
      Ok (match ff_ty f with
          | FBool => XBool (negb (raw =? 0))
          | F32 | F64 => XFloatBits raw
          | _ => XInt (as_signed sz raw)
          end)
  | VSignedCast mp => z <- signed_get sz mp raw ;; Ok (XInt z)
  | VNone => Ok (XInt (Z.of_N raw))
  end.

(** The raw value computed by [set_x] (gen/base/structure.rs:132-152); a value
    of another type does not type-check in Rust and is a panic here. *)
Definition view_set (f : fixed_field) (sz : nat) (v : vval) : outcome E N :=
  match ff_view f, v with
  | VFloat _ _ a_inv b_inv, XFloat x => Ok (float_set (ff_ty f) sz a_inv b_inv x)
  | VEnum _, XEnum (Some n) => Ok (n mod tmod sz)
  | (VTransmute | VSignedCast _), _ =>
      match ff_ty f, v with
      | FBool, XBool b => Ok (if b then 1 else 0)
      | (F32 | F64), XFloatBits n => Ok n
      | (I8 | I16 | I32 | I64), XInt z => Ok (as_unsigned sz z)
      | _, _ => Panic
      end
  | VNone, XInt z => Ok (Z.to_N z)
  | _, _ => Panic
  end.

(** [get_x] and [set_x] on a buffer. *)
Definition get_view (f : fixed_field) (data : bytes) : outcome E vval :=
  a <- gen_fixed f ;; raw <- ac_get a data ;; view_get f (ac_raw a) raw.
Definition set_view (f : fixed_field) (data : bytes) (v : vval) : outcome E bytes :=
  a <- gen_fixed f ;; raw <- view_set f (ac_raw a) v ;; ac_set a data raw.

(** ** Arrays
    structure.field.template:15-19 and 88-92: [get_x] / [get_x_mut] give an
    [ArrayCodec] over the window, with the item type [v.ty] (not its unsigned
    version) and ITEM_BIT_SIZE = [item_bit_size]. *)
Definition arr_window (f : array_field) (data : bytes) : outcome E bytes :=
  slice data (l_byte_offset (fa_loc f)) (l_byte_offset (fa_loc f) + l_byte_size (fa_loc f)).
Definition arr_get (f : array_field) (data : bytes) (i : N) : outcome E N :=
  ibs <- item_bit_size f ;;
  w <- arr_window f data ;;
  array_get_raw m (order_of (fa_endianness f)) (get_byte_size (fa_ty f)) ibs w i.
Definition arr_len (f : array_field) (data : bytes) : outcome E N :=
  ibs <- item_bit_size f ;; w <- arr_window f data ;; Codec.array_len ibs w.
Definition arr_iter (f : array_field) (data : bytes) : outcome E (list N) :=
  ibs <- item_bit_size f ;;
  w <- arr_window f data ;;
  array_iter_raw (order_of (fa_endianness f)) (get_byte_size (fa_ty f)) ibs w.
Definition arr_set (f : array_field) (data : bytes) (i v : N) : outcome E bytes :=
  ibs <- item_bit_size f ;;
  update_slice data (l_byte_offset (fa_loc f)) (l_byte_offset (fa_loc f) + l_byte_size (fa_loc f))
    (fun w => array_set_raw m (order_of (fa_endianness f)) (get_byte_size (fa_ty f)) ibs w i v).

(** ** Nested structures
    structure.field.template:20-24 and 93-97: [get_x] / [get_x_mut] of a
    structure field is the nested structure over the field's window. A chain
    [a().b().get_raw_c()] is given by the field indices. *)
Fixpoint path_get (s : structure) (path : list nat) (data : bytes) : outcome E N :=
  match path with
  | [] => Panic
  | i :: rest =>
      match nth_error (s_fields s) i, rest with
      | Some (FFixed f), [] => get_raw f data
      | Some (FStruct _ r loc), _ =>
          w <- slice data (l_byte_offset loc) (l_byte_offset loc + l_byte_size loc) ;;
          path_get r rest w
      | _, _ => Panic
      end
  end.
Fixpoint path_set (s : structure) (path : list nat) (data : bytes) (v : N) : outcome E bytes :=
  match path with
  | [] => Panic
  | i :: rest =>
      match nth_error (s_fields s) i, rest with
      | Some (FFixed f), [] => set_raw f data v
      | Some (FStruct _ r loc), _ =>
          update_slice data (l_byte_offset loc) (l_byte_offset loc + l_byte_size loc)
            (fun w => path_set r rest w v)
      | _, _ => Panic
      end
  end.

End Run.

(** structure.template:8-12: [new_on_stack] is a zeroed buffer. *)
Definition new_on_stack (s : structure) : bytes := repeat 0 (N.to_nat (s_byte_size s)).
