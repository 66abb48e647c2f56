(** Model of the view getters that the Swift generator writes.

    compiler/src/gen/swift/structure.field.template:25-67, the fragments
    [view_float], [view_enum], [view_transmute], [view_signed] and [view_none] of
    [getters]. The lines themselves are in SpecSwiftGen.v ([swift_view_getter]).

    Simplifications: the template writes conversions of numbers as [x as T], which
    Swift does not accept for numbers; they are taken as [T(x)], the only conversion
    Swift has, which traps when [T] has no such number. The generator writes no
    enumerations, so [E(raw: n)] is taken as the initializer of an enumeration with
    the cases of the description, which gives [nil] for a number without a case. A
    parameter is a literal of the view type, as in Rust. *)

From Coq Require Import NArith ZArith List Bool.
From Verif Require Import Base Codec Compiler Access SpecGen Swift SpecSwiftGen.
Import ListNotations.
Local Open Scope N_scope.

(** [T(x)] for the signed type of [sz] bytes. *)
Definition swift_signed (sz : nat) (x : Z) : sres Z :=
  if (- Z.of_N (tmod sz / 2) <=? x)%Z && (x <? Z.of_N (tmod sz / 2))%Z then Ok x else Panic.

(** structure.field.template:51-60: [+] and the negation trap on overflow. *)
Definition swift_signed_view (sz : nat) (max_positive raw : N) : sres Z :=
  if max_positive <? raw then
    let x := N.land (tmod sz - 1 - raw) max_positive in
    y <- (if x + 1 <? tmod sz then Ok (x + 1) else Panic) ;;
    z <- swift_signed sz (Z.of_N y) ;;
    swift_signed sz (- z)
  else swift_signed sz (Z.of_N (N.land raw max_positive)).

(** structure.field.template:30-35 *)
Definition swift_enum (e : enum_) (raw : N) : option N :=
  if existsb (N.eqb raw) (map snd (e_variants e)) then Some raw else None.

(** structure.field.template:24-67, from the raw value of [sz] bytes. *)
Definition swift_view (f : fixed_field) (sz : nat) (raw : N) : sres vval :=
  match ff_view f with
  | VFloat a b _ _ => Ok (XFloat (float_get (ff_ty f) a b raw))
  | VEnum e => Ok (XEnum (swift_enum e raw))
  | VTransmute =>
      Ok (match ff_ty f with
          | FBool => XBool (negb (raw =? 0))
          | F32 | F64 => XFloatBits raw
          | _ => XInt (as_signed sz raw)
          end)
  | VSignedCast mp => z <- swift_signed_view sz mp raw ;; Ok (XInt z)
  | VNone => Ok (XInt (Z.of_N raw))
  end.

(** The view of the field that [a] reads: [self.raw_x], then the lines above. *)
Definition swift_get_view (m : mode) (f : fixed_field) (a : accessor) (b : dbuf) : sres vval :=
  raw <- swift_get m a b ;; swift_view f (ac_raw a) raw.

(** structure.field.template:15-19: the window of an array field, and an item of it
    through the [ArrayCodec] over it (array.swift:45-49). The runtime has only unsigned
    items (bytesutil.swift:42, 94, 138, 178). *)
Definition swift_array_item (m : mode) (f : array_field) (b : dbuf) (i : Z) : sres N :=
  w <- swift_part m (fa_loc f) b ;;
  s_array_get m (order_of (fa_endianness f)) (get_byte_size (fa_ty f)) (Z.of_N (item_bits f)) w i.

(** structure.field.template:20-24: a chain [a.b.raw_c] of structure fields, given by the
    field indices, as [path_get] for Rust. *)
Fixpoint swift_path_get (m : mode) (s : structure) (path : list nat) (b : dbuf) : sres N :=
  match path with
  | [] => Panic
  | i :: rest =>
      match nth_error (s_fields s) i, rest with
      | Some (FFixed f), [] => a <- gen_fixed f ;; swift_get m a b
      | Some (FStruct _ r loc), _ => w <- swift_part m loc b ;; swift_path_get m r rest w
      | _, _ => Panic
      end
  end.

(** [s.x[i] = v] for an array field [x]: the [ArrayCodec] over the window, then
    array.swift:50-55. The window shares the storage of the structure, unless it is a
    constant one, as in [s_array_set]. *)
Definition swift_array_assign (m : mode) (f : array_field) (b : dbuf) (i : Z) (v : N) : sres dbuf :=
  w <- swift_part m (fa_loc f) b ;;
  w' <- s_array_set m (order_of (fa_endianness f)) (get_byte_size (fa_ty f)) (Z.of_N (item_bits f)) w i v ;;
  if db_mut b
  then Ok {| db_data := db_data w'; db_mut := true; db_start := db_start b;
             db_end := db_end b; db_cursor := db_cursor b |}
  else Ok b.

(** The structure at the end of a chain of structure fields, and its bytes in Swift (the
    same lines) and in Rust (gen/rust/structure.field.template:20-24). *)
Fixpoint swift_path_part (m : mode) (s : structure) (path : list nat) (b : dbuf) : sres (structure * dbuf) :=
  match path with
  | [] => Ok (s, b)
  | i :: rest =>
      match nth_error (s_fields s) i with
      | Some (FStruct _ r loc) => w <- swift_part m loc b ;; swift_path_part m r rest w
      | _ => Panic
      end
  end.
Fixpoint rust_path_part {E} (s : structure) (path : list nat) (data : bytes) : outcome E (structure * bytes) :=
  match path with
  | [] => Ok (s, data)
  | i :: rest =>
      match nth_error (s_fields s) i with
      | Some (FStruct _ r loc) =>
          w <- slice data (l_byte_offset loc) (l_byte_offset loc + l_byte_size loc) ;; rust_path_part r rest w
      | _ => Panic
      end
  end.
