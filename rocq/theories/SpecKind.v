(** Specification vocabulary for C96: fields of structures that get another kind of number or another view. *)

From Coq Require Import Arith NArith String List Bool.
From Verif Require Import Base Schema Compiler Access Runtime Gen SpecStruct SpecReadable SpecWire.
Import ListNotations.
Local Open Scope N_scope.

(** ** The description *)

(** The same number of bits, of any kind (signed, unsigned, float, boolean); structures stay. *)
Definition same_width (t t' : sftype) : Prop :=
  match t, t' with
  | STStruct n, STStruct n' => n' = n
  | STStruct _, _ | _, STStruct _ => False
  | (STSigned b | STUnsigned b | STFloat b | STBoolean b), (STSigned b' | STUnsigned b' | STFloat b' | STBoolean b') => b' = b
  end.
(** The view may be any. *)
Definition retyped_field (f f' : sfield) : Prop :=
  sf_name f' = sf_name f /\ sf_array_len f' = sf_array_len f /\ same_width (sf_info f) (sf_info f').
Definition retyped_struct (d d' : sstruct) : Prop :=
  ss_name d' = ss_name d /\ Forall2 retyped_field (ss_fields d) (ss_fields d').
(** The labels of the cases may be any, as they depend on the kind of the discriminant. *)
Definition retyped_union (u u' : sunion) : Prop :=
  sun_name u' = sun_name u /\ sun_discriminant u' = sun_discriminant u /\
  Forall2 (fun c c' => su_name c' = su_name c /\ su_item_type c' = su_item_type c) (sun_cases u) (sun_cases u').
(** The enums may be any. *)
Definition retyped (d d' : sprotocol) : Prop :=
  sp_name d' = sp_name d /\ sp_imports d' = sp_imports d /\ sp_messages d' = sp_messages d /\
  Forall2 retyped_struct (sp_structs d) (sp_structs d') /\ Forall2 retyped_union (sp_unions d) (sp_unions d').

(** ** Structures *)

(** The same sizes; the same bits for every scalar that is reached by a chain of accessors, and the same raw
    accessors; arrays in the same place with as many items, accessed alike where items are of the same storage size. *)
Definition same_layout (s s' : structure) : Prop :=
  s_name s' = s_name s /\ s_bit_size s' = s_bit_size s /\ s_byte_size s' = s_byte_size s /\
  (forall path o w, path_at s' path o w <-> path_at s path o w) /\
  (forall E (m : mode) path data, path_get (E:=E) m s' path data = path_get m s path data) /\
  (forall E (m : mode) path data v, path_set (E:=E) m s' path data v = path_set m s path data v) /\
  forall i f, nth_error (s_fields s) i = Some (FArray f) ->
    exists f', nth_error (s_fields s') i = Some (FArray f') /\
      (forall E data, arr_len (E:=E) f' data = arr_len f data) /\
      (get_byte_size (fa_ty f') = get_byte_size (fa_ty f) -> forall E (m : mode) data p,
         arr_get (E:=E) m f' data p = arr_get m f data p /\ forall v, arr_set (E:=E) m f' data p v = arr_set m f data p v).

(** ** Messages *)

(** A structure of a single field has less than 2^64 bits; all sizes in a description have less than 64 bits. *)
Definition narrow (d : sstruct) : Prop := forall f t, ss_fields d = [f] -> declared_total [] [f] = Some t -> t < 2 ^ 64.

(** What is asked of a structure and its new version: it is unchanged, or neither of the two is a single number
    of a width that the compiler has no type for. *)
Definition sound (m : mode) (d d' : sstruct) : Prop :=
  d' = d \/ ((m = Debug \/ narrow d) /\ (m = Debug \/ narrow d') /\ ~ misfit d /\ ~ misfit d').

(** The same value, but that a structure of one number may be given as the number or by its bytes. *)
Inductive same_value : value -> value -> Prop :=
| sv_scalar : forall n, same_value (VScalar n) (VScalar n)
| sv_struct : forall data, same_value (VStruct data) (VStruct data)
| sv_bytes : forall n data, number Little (length data) n data -> same_value (VScalar n) (VStruct data)
| sv_number : forall n data, number Little (length data) n data -> same_value (VStruct data) (VScalar n)
| sv_str : forall s, same_value (VStr s) (VStr s)
| sv_listing : forall data n, same_value (VListing data n) (VListing data n)
| sv_payload : forall b, same_value (VPayload b) (VPayload b)
| sv_none : same_value (VOpt None) (VOpt None)
| sv_some : forall v v', same_value v v' -> same_value (VOpt (Some v)) (VOpt (Some v'))
| sv_case : forall k, same_value (VUnion k None) (VUnion k None)
| sv_union : forall k v v', same_value v v' -> same_value (VUnion k (Some v)) (VUnion k (Some v'))
| sv_msg : forall vs vs', Forall2 same_value vs vs' -> same_value (VMsg vs) (VMsg vs').

(** The same size and the same value, or the same error, or both panic. *)
Definition read_alike (r r' : rres (N * value)) : Prop :=
  match r, r' with
  | Ok (n, v), Ok (n', v') => n' = n /\ same_value v v'
  | Err e, Err e' => e' = e
  | Panic, Panic => True
  | _, _ => False
  end.
(** Every input of bytes is read alike, and the same byte strings are encodings, of the same values. *)
Definition same_format (x x' : message) : Prop :=
  (forall m emb b, bytes_ok b -> read_alike (read_msg m emb x b) (read_msg m emb x' b)) /\
  (forall m v b, encodes m x v b -> exists v', same_value v v' /\ encodes m x' v' b) /\
  (forall m v' b, encodes m x' v' b -> exists v, same_value v v' /\ encodes m x v b).

(** The cases of a union have the same numbers, in order. *)
Definition same_numbers (u u' : union_) : Prop := map uc_case (u_cases u') = map uc_case (u_cases u).
