(** Model of compiler/src/compiler/*.rs and compiler/src/util.rs: from a
    protocol description to a compiled protocol.

    [Rc] pointers: a compiled structure or message is a tree; sharing is
    only observable through [Rc::ptr_eq] (structures) and the
    [Cell<bool>] named [embedded] (messages), so each carries the identifier
    of its allocation. Identifiers are handed out by [world]; the set of
    messages whose [embedded] cell is true is a list of identifiers.

    Simplification: a compilation that fails gives no new [world], while in
    Rust the [embedded] cells it has already set on imported messages
    (message.rs:194) stay set. [Loader::compile] consumes the loader and
    the solver, so this shows only with a solver that keeps the protocols of
    a failed run for another run. *)

From Coq Require Import Arith NArith ZArith String List Bool Ascii Floats.SpecFloat.
From Verif Require Import Base Schema.
Import ListNotations.
Local Open Scope N_scope.

(** compiler/error.rs:32-49 *)
Inductive cerror :=
| EMultiPayload
| EVarsizeAfterPayload
| EUnsupportedBitSize (n : N)
| EUnsupportedType (t : sftype)
| EUnsupportedViewType (t : simple_type)
| EMissingBitSize
| EUndefinedReference (s : string)
| EUnalignedArrayCodec
| ESolverError
| EZeroEnum
| EInvalidUnionDiscriminant
| EFloatInUnionDiscriminant
| EInvalidUnionCase (s : string)
| EUnionTypeMismatch.

Definition cres := outcome cerror.

(** [HashMap<String, _>]: newest entry first; [get] finds the newest. *)
Definition smap (A : Type) := list (string * A).
Fixpoint sget {A} (k : string) (m : smap A) : option A :=
  match m with
  | [] => None
  | (k', v) :: r => if String.eqb k k' then Some v else sget k r
  end.
Definition sinsert {A} (k : string) (v : A) (m : smap A) : smap A := (k, v) :: m.

(** ** compiler/enum.rs *)

(** enum.rs:33-38 *)
Record enum_ := {
  e_name : string;
  e_largest : N;
  e_variants : list (string * N);
  e_map : smap N }.

(** [variants.sort_by(|(_, v), (_, v1)| v.cmp(v1))] (enum.rs:43): a stable
    sort by value, here by insertion. *)
Fixpoint insert_variant (x : string * N) (l : list (string * N)) : list (string * N) :=
  match l with
  | [] => [x]
  | y :: r => if snd x <=? snd y then x :: l else y :: insert_variant x r
  end.
Definition sort_variants (l : list (string * N)) : list (string * N) :=
  fold_right insert_variant [] l.

(** enum.rs:41-56 *)
Definition enum_from_model (v : senum) : cres enum_ :=
  let variants := sort_variants (se_variants v) in
  largest <- ok_or (match rev variants with (_, n) :: _ => Some n | [] => None end) EZeroEnum ;;
  let variants_map := fold_left (fun m kv => sinsert (fst kv) (snd kv) m) variants [] in
  Ok {| e_name := se_name v; e_largest := largest; e_variants := variants; e_map := variants_map |}.

(** ** compiler/structure.rs *)

(** structure.rs:36-48 *)
Inductive fixed_type := I8 | I16 | I32 | I64 | U8 | U16 | U32 | U64 | F32 | F64 | FBool.

(** structure.rs:50-57 *)
Definition map_numeric (ty : simple_type) (signed unsigned float : fixed_type) : option fixed_type :=
  match ty with
  | Signed => Some signed
  | Unsigned => Some unsigned
  | Float => Some float
  | _ => None
  end.

(** structure.rs:60-74 *)
Definition get_byte_size (t : fixed_type) : nat :=
  match t with
  | I8 | U8 | FBool => 1
  | I16 | U16 => 2
  | I32 | U32 | F32 => 4
  | I64 | U64 | F64 => 8
  end%nat.

Definition simple_eqb (a b : simple_type) : bool :=
  match a, b with
  | Signed, Signed | Unsigned, Unsigned | Float, Float | Boolean, Boolean | Struct, Struct => true
  | _, _ => false
  end.

(** structure.rs:89-114 *)
Definition fixed_from_model (ty1 : sftype) : cres fixed_type :=
  let ty := get_simple_type ty1 in
  bit_size <- ok_or (get_bit_size ty1) (EUnsupportedType ty1) ;;
  if simple_eqb ty Boolean then Ok FBool
  else if simple_eqb ty Float && (bit_size =? 32) then Ok F32
  else if simple_eqb ty Float && (bit_size =? 64) then Ok F64
  else if (32 <? bit_size) && (bit_size <=? 64) then
    ok_or (map_numeric ty I64 U64 F64) (EUnsupportedType ty1)
  else if (16 <? bit_size) && (bit_size <=? 32) then
    ok_or (map_numeric ty I32 U32 F64) (EUnsupportedType ty1)
  else if (8 <? bit_size) && (bit_size <=? 16) then
    ok_or (map_numeric ty I16 U16 F32) (EUnsupportedType ty1)
  else if (0 <? bit_size) && (bit_size <=? 8) then
    ok_or (map_numeric ty I8 U8 F32) (EUnsupportedType ty1)
  else Err (EUnsupportedBitSize bit_size).

(** structure.rs:76-87 *)
Definition fixed_from_max_value (max_value : N) : cres fixed_type :=
  let bit_size :=
    if 2 ^ 32 - 1 <? max_value then 64
    else if 2 ^ 16 - 1 <? max_value then 32
    else if 2 ^ 8 - 1 <? max_value then 16
    else 8 in
  fixed_from_model (STUnsigned bit_size).

(** structure.rs:117-123 *)
Record location := {
  l_byte_offset : N;
  l_bit_offset : N;
  l_byte_size : N;
  l_bit_size : N }.

(** [(n / 8) + 1] if [n % 8 != 0], else [n / 8] (structure.rs:132-136, 352-356). *)
Definition bytes_of_bits (n : N) : N := if n mod 8 =? 0 then n / 8 else n / 8 + 1.

(** structure.rs:126-138 *)
Definition location_from_model (bit_size bit_offset : N) : location :=
  let byte_offset := bit_offset / 8 in
  {| l_byte_offset := byte_offset;
     l_bit_offset := bit_offset - byte_offset * 8;
     l_byte_size := bytes_of_bits bit_size;
     l_bit_size := bit_size |}.

(** structure.rs:140-142: panics when the width is not supported. *)
Definition get_unsigned_integer_type {E} (l : location) : outcome E fixed_type :=
  unwrap_res (fixed_from_model (STUnsigned (l_bit_size l))).

(** structure.rs:146-168 *)
Inductive fview :=
| VFloat (a b a_inv b_inv : f64)
| VEnum (e : enum_)
| VTransmute
| VSignedCast (max_positive : N)
| VNone.

(** structure.rs:171-177 *)
Definition is_transmute (v : fview) : bool :=
  match v with VTransmute | VNone => true | _ => false end.

(** f64 arithmetic (binary64, round to nearest even). *)
Definition f64_of_N (n : N) : f64 :=
  match n with
  | N0 => S754_zero false
  | Npos p => binary_normalize 53 1024 (Zpos p) 0 false
  end.
Definition f64_div : f64 -> f64 -> f64 := SFdiv 53 1024.
Definition f64_one : f64 := f64_of_N 1.
Definition f64_zero : f64 := S754_zero false.

(** structure.rs:179-222 *)
Definition view_from_model (m : mode) (enums : smap enum_) (ty : simple_type) (bit_size : N)
  (value : option sview) : cres fview :=
  match value with
  | Some (SVEnum name) =>
      if negb (simple_eqb ty Unsigned) then Err (EUnsupportedViewType ty)
      else r <- ok_or (sget name enums) (EUndefinedReference name) ;; Ok (VEnum r)
  | Some (SVFloatRange min max) =>
      if negb (simple_eqb ty Float) then Err (EUnsupportedViewType ty)
      else
        x <- ushl1 m bit_size ;;
        raw_max <- usub m x 1 ;;
        let a := f64_div max (f64_of_N raw_max) in
        let b := min in
        let a_inv := f64_div f64_one a in
        let b_inv := SFopp b in
        Ok (VFloat a b a_inv b_inv)
  | Some (SVFloatMultiplier multiplier) =>
      if negb (simple_eqb ty Float) then Err (EUnsupportedViewType ty)
      else
        let a := multiplier in
        let b := f64_zero in
        let a_inv := f64_div f64_one a in
        let b_inv := f64_zero in
        Ok (VFloat a b a_inv b_inv)
  | None =>
      if simple_eqb ty Float && negb (bit_size =? 32) && negb (bit_size =? 64)
      then Err (EUnsupportedViewType ty)
      else if simple_eqb ty Signed && negb (bit_size =? 8) && negb (bit_size =? 16)
              && negb (bit_size =? 32) && negb (bit_size =? 64)
      then
        k <- usub m bit_size 1 ;;
        max_value <- ushl1 m k ;;
        mp <- usub m max_value 1 ;;
        Ok (VSignedCast mp)
      else if simple_eqb ty Unsigned then Ok VNone
      else Ok VTransmute
  end.

(** structure.rs:226-232 *)
Record fixed_field := {
  ff_name : string;
  ff_ty : fixed_type;
  ff_loc : location;
  ff_view : fview;
  ff_endianness : endianness }.

(** structure.rs:235-241 *)
Record array_field := {
  fa_name : string;
  fa_ty : fixed_type;
  fa_array_len : N;
  fa_loc : location;
  fa_endianness : endianness }.

(** structure.rs:243-247 *)
Definition item_bit_size {E} (a : array_field) : outcome E N :=
  udiv (l_bit_size (fa_loc a)) (fa_array_len a).

(** structure.rs:250-254 [StructField], 257-261 [Field], 330-335 [Structure]. *)
Inductive field :=
| FFixed (f : fixed_field)
| FArray (f : array_field)
| FStruct (name : string) (r : structure) (loc : location)
with structure :=
| MkStructure (id : N) (name : string) (fields : list field) (byte_size bit_size : N).

Definition s_id (s : structure) := let 'MkStructure i _ _ _ _ := s in i.
Definition s_name (s : structure) := let 'MkStructure _ n _ _ _ := s in n.
Definition s_fields (s : structure) := let 'MkStructure _ _ f _ _ := s in f.
Definition s_byte_size (s : structure) := let 'MkStructure _ _ _ b _ := s in b.
Definition s_bit_size (s : structure) := let 'MkStructure _ _ _ _ b := s in b.

(** structure.rs:264-269, 271-277, 279-285 *)
Definition as_fixed (f : field) : option fixed_field :=
  match f with FFixed v => Some v | _ => None end.
Definition field_loc (f : field) : location :=
  match f with FFixed v => ff_loc v | FArray v => fa_loc v | FStruct _ _ l => l end.
Definition field_name (f : field) : string :=
  match f with FFixed v => ff_name v | FArray v => fa_name v | FStruct n _ _ => n end.

(** structure.rs:287-326. Only the parts of [proto] that are read are passed. *)
Definition field_from_model (m : mode) (endi : endianness) (enums : smap enum_)
  (structs : smap structure) (last_bit_offset : N) (value : sfield) : cres (field * N) :=
  match sf_info value with
  | STStruct item_type =>
      r <- ok_or (sget item_type structs) (EUndefinedReference item_type) ;;
      off <- uadd m last_bit_offset (s_bit_size r) ;;
      Ok (FStruct (sf_name value) r (location_from_model (s_bit_size r) last_bit_offset), off)
  | info =>
      let array_len := match sf_array_len value with Some n => n | None => 1 end in
      bit_size0 <- ok_or (get_bit_size info) EMissingBitSize ;;
      view <- view_from_model m enums (get_simple_type info) bit_size0 (sf_view value) ;;
      bit_size <- umul m bit_size0 array_len ;;
      ty <- fixed_from_model info ;;
      let loc := location_from_model bit_size last_bit_offset in
      if 1 <? array_len then
        if negb (bit_size mod 8 =? 0) then Err EUnalignedArrayCodec
        else
          off <- uadd m last_bit_offset bit_size ;;
          Ok (FArray {| fa_name := sf_name value; fa_ty := ty; fa_array_len := array_len;
                        fa_loc := loc; fa_endianness := endi |}, off)
      else
        off <- uadd m last_bit_offset bit_size ;;
        Ok (FFixed {| ff_name := sf_name value; ff_ty := ty; ff_loc := loc; ff_view := view;
                      ff_endianness := endi |}, off)
  end.

(** structure.rs:339-347, 350: the mapped iterator and its [collect]. *)
Fixpoint fields_from_model (m : mode) (endi : endianness) (enums : smap enum_)
  (structs : smap structure) (last_bit_offset : N) (l : list sfield) : cres (list field * N) :=
  match l with
  | [] => Ok ([], last_bit_offset)
  | v :: r =>
      '(f, off) <- field_from_model m endi enums structs last_bit_offset v ;;
      '(fs, off') <- fields_from_model m endi enums structs off r ;;
      Ok (f :: fs, off')
  end.

(** structure.rs:338-358, with the identifier of the [Rc] it is put in. *)
Definition structure_from_model (m : mode) (endi : endianness) (enums : smap enum_)
  (structs : smap structure) (id : N) (value : sstruct) : cres structure :=
  '(fields, last_bit_offset) <- fields_from_model m endi enums structs 0 (ss_fields value) ;;
  Ok (MkStructure id (ss_name value) fields (bytes_of_bits last_bit_offset) last_bit_offset).

(** ** compiler/union.rs and compiler/message.rs *)

(** message.rs:112-116 *)
Record size_info := { is_dyn_sized : bool; is_element_dyn_sized : bool }.

(** union.rs:62-68 *)
Record disc_field := {
  d_root : structure;
  d_leaf : structure;
  d_leaf_index : nat;
  d_index_list : list nat }.

(** message.rs:38-42 [Referenced], 88-98 [FieldType] (with its payload
    structures 59-86), 118-125 [Field], 290-296 [Message];
    union.rs:34-38 [UnionField], 131-136 [Union].
    The [endianness] of message fields is the protocol's, kept per field. *)
Inductive referenced :=
| RStruct (s : structure)
| RMessage (msg : message)
with mfield_type :=
| TFixed (ty : fixed_type)
| TRef (r : referenced)
| TNullTerminatedString
| TVarcharString (ty : fixed_type)
| TArray (ty : fixed_type) (item_type : structure)
| TUnion (r : union_) (on_name : string) (on_index : nat)
| TList (ty : fixed_type) (item_type : message)
| TPayload
with mfield :=
| MkMField (name : string) (ty : mfield_type) (optional : bool) (size : size_info) (endi : endianness)
with message :=
| MkMessage (id : N) (name : string) (fields : list mfield) (size : size_info)
with ucase :=
| MkUCase (name : string) (case : N) (item_type : option referenced)
with union_ :=
| MkUnion (name : string) (disc : disc_field) (cases : list ucase) (size : size_info).

Definition mf_name (f : mfield) := let 'MkMField n _ _ _ _ := f in n.
Definition mf_ty (f : mfield) := let 'MkMField _ t _ _ _ := f in t.
Definition mf_optional (f : mfield) := let 'MkMField _ _ o _ _ := f in o.
Definition mf_size (f : mfield) := let 'MkMField _ _ _ s _ := f in s.
Definition mf_endi (f : mfield) := let 'MkMField _ _ _ _ e := f in e.
Definition m_id (x : message) := let 'MkMessage i _ _ _ := x in i.
Definition m_name (x : message) := let 'MkMessage _ n _ _ := x in n.
Definition m_fields (x : message) := let 'MkMessage _ _ f _ := x in f.
Definition m_size (x : message) := let 'MkMessage _ _ _ s := x in s.
Definition uc_name (c : ucase) := let 'MkUCase n _ _ := c in n.
Definition uc_case (c : ucase) := let 'MkUCase _ k _ := c in k.
Definition uc_item (c : ucase) := let 'MkUCase _ _ i := c in i.
Definition u_name (u : union_) := let 'MkUnion n _ _ _ := u in n.
Definition u_disc (u : union_) := let 'MkUnion _ d _ _ := u in d.
Definition u_cases (u : union_) := let 'MkUnion _ _ c _ := u in c.
Definition u_size (u : union_) := let 'MkUnion _ _ _ s := u in s.

(** message.rs:52-56 *)
Definition referenced_lookup (structs : smap structure) (messages : smap message)
  (name : string) : option referenced :=
  match sget name structs with
  | Some s => Some (RStruct s)
  | None => match sget name messages with Some x => Some (RMessage x) | None => None end
  end.

(** [str::split(".")]: always at least one part. *)
Fixpoint split_dot (s : string) : string * list string :=
  match s with
  | EmptyString => (EmptyString, [])
  | String c r =>
      let '(h, t) := split_dot r in
      if Ascii.eqb c "."%char then (EmptyString, h :: t) else (String c h, t)
  end.

(** [str::parse::<usize>] / [str::parse::<isize>]: optional sign, at least one
    digit, no overflow; a minus sign is only accepted by the signed version. *)
Definition digit_of (c : ascii) : option N :=
  let n := N_of_ascii c in
  if (48 <=? n) && (n <=? 57) then Some (n - 48) else None.
Fixpoint parse_digits (acc : N) (s : string) : option N :=
  match s with
  | EmptyString => Some acc
  | String c r => match digit_of c with Some d => parse_digits (10 * acc + d) r | None => None end
  end.
Definition parse_nat_digits (s : string) : option N :=
  match s with EmptyString => None | _ => parse_digits 0 s end.
Definition parse_usize (s : string) : option N :=
  let digits := match s with String "+"%char r => r | _ => s end in
  match parse_nat_digits digits with
  | Some n => if n <? usize_mod then Some n else None
  | None => None
  end.
Definition parse_isize (s : string) : option Z :=
  match s with
  | String "-"%char r =>
      match parse_nat_digits r with
      | Some n => if n <=? 2 ^ 63 then Some (- Z.of_N n)%Z else None
      | None => None
      end
  | _ =>
      let digits := match s with String "+"%char r => r | _ => s end in
      match parse_nat_digits digits with
      | Some n => if n <? 2 ^ 63 then Some (Z.of_N n) else None
      | None => None
      end
  end.
(** [value as usize] for an isize. *)
Definition isize_as_usize (z : Z) : N := Z.to_N (z mod 2 ^ 64)%Z.

(** union.rs:42-59 *)
Definition ucase_from_model (structs : smap structure) (messages : smap message)
  (discriminant : fixed_field) (value : sucase) : cres ucase :=
  case <- match ff_view discriminant with
          | VFloat _ _ _ _ => Err EFloatInUnionDiscriminant
          | VEnum e => ok_or (sget (su_case value) (e_map e)) (EInvalidUnionCase (su_case value))
          | VTransmute | VSignedCast _ =>
              v <- ok_or (parse_isize (su_case value)) (EInvalidUnionCase (su_case value)) ;;
              Ok (isize_as_usize v)
          | VNone => ok_or (parse_usize (su_case value)) (EInvalidUnionCase (su_case value))
          end ;;
  item <- match su_item_type value with
          | None => Ok None
          | Some v =>
              r <- ok_or (referenced_lookup structs messages v) (EUndefinedReference v) ;;
              Ok (Some r)
          end ;;
  Ok (MkUCase (su_name value) case item).

(** [leaf.fields.iter().enumerate().find(|(_, v)| v.name() == sub)] (union.rs:112-113) *)
Fixpoint find_field (name : string) (i : nat) (l : list field) : option (nat * field) :=
  match l with
  | [] => None
  | f :: r => if String.eqb (field_name f) name then Some (i, f) else find_field name (S i) r
  end.

(** union.rs:111-121: the loop over the remaining path components; returns
    the final [leaf] and [index_list]. *)
Fixpoint disc_walk (root_name : string) (leaf : structure) (index_list : list nat)
  (parts : list string) : cres (structure * list nat) :=
  match parts with
  | [] => Ok (leaf, index_list)
  | sub :: rest =>
      '(index, f) <- ok_or (find_field sub 0 (s_fields leaf))
        (EUndefinedReference (root_name ++ String "."%char sub)) ;;
      let index_list := (index_list ++ [index])%list in
      match f with
      | FFixed _ => Ok (leaf, index_list)
      | FStruct _ r _ => disc_walk root_name r index_list rest
      | FArray _ => Err EInvalidUnionDiscriminant
      end
  end.

(** union.rs:105-128; [index_list.last().unwrap()] panics on an empty path. *)
Definition disc_from_model (structs : smap structure) (discriminant : string) : cres disc_field :=
  let '(name, parts) := split_dot discriminant in
  root <- ok_or (sget name structs) (EUndefinedReference name) ;;
  '(leaf, index_list) <- disc_walk name root [] parts ;;
  leaf_index <- unwrap (last (map Some index_list) None) ;;
  Ok {| d_root := root; d_leaf := leaf; d_leaf_index := leaf_index; d_index_list := index_list |}.

(** union.rs:101-103: indexing and [unwrap] both panic. *)
Definition get_leaf {E} (d : disc_field) : outcome E fixed_field :=
  f <- unwrap (nth_error (s_fields (d_leaf d)) (d_leaf_index d)) ;;
  unwrap (as_fixed f).

(** union.rs:141-142: [get_leaf] is evaluated once per case, so a union
    without cases never evaluates it. *)
Fixpoint ucases_from_model (structs : smap structure) (messages : smap message)
  (d : disc_field) (l : list sucase) : cres (list ucase) :=
  match l with
  | [] => Ok []
  | v :: r =>
      leaf <- get_leaf d ;;
      c <- ucase_from_model structs messages leaf v ;;
      cs <- ucases_from_model structs messages d r ;;
      Ok (c :: cs)
  end.

(** union.rs:140-161 *)
Definition union_from_model (structs : smap structure) (messages : smap message)
  (value : sunion) : cres union_ :=
  discriminant <- disc_from_model structs (sun_discriminant value) ;;
  cases <- ucases_from_model structs messages discriminant (sun_cases value) ;;
  let size_of f := existsb (fun c => match uc_item c with
                                     | Some (RMessage x) => f (m_size x)
                                     | _ => false
                                     end) cases in
  Ok (MkUnion (sun_name value) discriminant cases
        {| is_dyn_sized := size_of is_dyn_sized;
           is_element_dyn_sized := size_of is_element_dyn_sized |}).

Definition opt_default (o : option bool) : bool := match o with Some b => b | None => false end.
Definition size_static := {| is_dyn_sized := false; is_element_dyn_sized := false |}.
Definition size_dyn := {| is_dyn_sized := true; is_element_dyn_sized := false |}.
Definition size_open := {| is_dyn_sized := true; is_element_dyn_sized := true |}.

(** message.rs:134-136: a structure with exactly one scalar field, without a
    converting view and with a whole number of bytes, is flattened. *)
Definition flattened (s : structure) : option fixed_field :=
  match s_fields s with
  | [FFixed f] => if is_transmute (ff_view f) && (l_bit_size (ff_loc f) mod 8 =? 0) then Some f else None
  | _ => None
  end.

(** [unsorted.iter().enumerate().find_map(...)] (message.rs:243-247) *)
Fixpoint find_mfield (name : string) (i : nat) (l : list mfield) : option (nat * mfield) :=
  match l with
  | [] => None
  | f :: r => if String.eqb (mf_name f) name then Some (i, f) else find_mfield name (S i) r
  end.

(** The parts of [Protocol] that message compilation reads. *)
Record proto_env := {
  pe_endianness : endianness;
  pe_structs : smap structure;
  pe_messages : smap message;
  pe_unions : smap union_ }.

(** message.rs:128-287. The second component lists the messages whose
    [embedded] cell is set (message.rs:194). *)
Definition mfield_from_model (env : proto_env) (unsorted : list mfield) (value : smfield)
  : cres (mfield * list N) :=
  let name := smf_name value in
  let opt := opt_default (smf_optional value) in
  let endi := pe_endianness env in
  let lookup := referenced_lookup (pe_structs env) (pe_messages env) in
  match smf_info value with
  | MTItem item_type =>
      r <- ok_or (lookup item_type) (EUndefinedReference item_type) ;;
      match r with
      | RStruct s =>
          match flattened s with
          | Some fixed => Ok (MkMField name (TFixed (ff_ty fixed)) opt size_static endi, [])
          | None => Ok (MkMField name (TRef (RStruct s)) opt size_static endi, [])
          end
      | RMessage x => Ok (MkMField name (TRef (RMessage x)) opt (m_size x) endi, [])
      end
  | MTList max_len item_type =>
      r <- ok_or (lookup item_type) (EUndefinedReference item_type) ;;
      ty <- fixed_from_max_value max_len ;;
      match r with
      | RStruct s => Ok (MkMField name (TArray ty s) opt size_dyn endi, [])
      | RMessage x => Ok (MkMField name (TList ty x) opt size_open endi, [m_id x])
      end
  | MTString None => Ok (MkMField name TNullTerminatedString opt size_dyn endi, [])
  | MTString (Some max_len) =>
      ty <- fixed_from_max_value max_len ;;
      Ok (MkMField name (TVarcharString ty) opt size_dyn endi, [])
  | MTUnion on item_type =>
      '(on_index, on_field) <- ok_or (find_mfield on 0 unsorted) (EUndefinedReference on) ;;
      r <- ok_or (sget item_type (pe_unions env)) (EUndefinedReference item_type) ;;
      match mf_ty on_field with
      | TRef (RStruct s) =>
          if s_id (d_root (u_disc r)) =? s_id s
          then Ok (MkMField name (TUnion r (mf_name on_field) on_index) false (u_size r) endi, [])
          else Err EUnionTypeMismatch
      | _ => Err EUnionTypeMismatch
      end
  | MTPayload => Ok (MkMField name TPayload opt size_open endi, [])
  end.

(** message.rs:304-322: the loop over the fields, with its three locals. *)
Fixpoint mfields_from_model (env : proto_env) (fields : list mfield) (dyn_count : N) (dyn : bool)
  (marks : list N) (l : list smfield) : cres (list mfield * N * bool * list N) :=
  match l with
  | [] => Ok (fields, dyn_count, dyn, marks)
  | v :: r =>
      '(f, mk) <- mfield_from_model env fields v ;;
      let size := mf_size f in
      let dyn := dyn || is_dyn_sized size in
      if (0 <? dyn_count) && (is_dyn_sized size || is_element_dyn_sized size)
      then Err EVarsizeAfterPayload
      else
        let dyn_count := if is_element_dyn_sized size then dyn_count + 1 else dyn_count in
        if 1 <? dyn_count then Err EMultiPayload
        else mfields_from_model env (fields ++ [f])%list dyn_count dyn (marks ++ mk)%list r
  end.

(** message.rs:303-332, with the identifier of the [Rc] it is put in. *)
Definition message_from_model (env : proto_env) (id : N) (value : smessage) : cres (message * list N) :=
  '(fields, dyn_count, dyn, marks) <- mfields_from_model env [] 0 false [] (sm_fields value) ;;
  Ok (MkMessage id (sm_name value) fields
        {| is_dyn_sized := dyn; is_element_dyn_sized := 0 <? dyn_count |}, marks).

(** ** compiler/protocol.rs *)

(** protocol.rs:39-52; the type path map is compiler/util.rs:38-41. *)
Record protocol := {
  p_name : string;
  p_endianness : endianness;
  p_type_path_by_name : smap string;
  p_structs_by_name : smap structure;
  p_messages_by_name : smap message;
  p_enums_by_name : smap enum_;
  p_unions_by_name : smap union_;
  p_structs : list structure;
  p_messages : list message;
  p_enums : list enum_;
  p_unions : list union_ }.

(** compiler/util.rs:54-59 *)
Definition type_path_get (m : smap string) (item_type : string) : string :=
  match sget item_type m with None => item_type | Some v => v end.
(** compiler/util.rs:61-66 *)
Definition type_path_get_with_default_prefix (m : smap string) (item_type default_prefix : string) : string :=
  match sget item_type m with None => default_prefix ++ item_type | Some v => v end.

(** compiler/util.rs:33-36: the trait [ImportResolver]. *)
Record resolver := {
  r_protocol : string -> option protocol;
  r_path : string -> string -> option string }.

(** Allocation counter and the set of messages with [embedded = true]. *)
Record world := { w_next : N; w_embedded : list N }.

(** protocol.rs:56-68 *)
Definition protocol_empty (name : string) : protocol :=
  {| p_name := name; p_endianness := Little; p_type_path_by_name := [];
     p_structs_by_name := []; p_messages_by_name := []; p_enums_by_name := [];
     p_unions_by_name := []; p_structs := []; p_messages := []; p_enums := []; p_unions := [] |}.

Definition add_path (p : protocol) (k v : string) : protocol :=
  {| p_name := p_name p; p_endianness := p_endianness p;
     p_type_path_by_name := sinsert k v (p_type_path_by_name p);
     p_structs_by_name := p_structs_by_name p; p_messages_by_name := p_messages_by_name p;
     p_enums_by_name := p_enums_by_name p; p_unions_by_name := p_unions_by_name p;
     p_structs := p_structs p; p_messages := p_messages p; p_enums := p_enums p;
     p_unions := p_unions p |}.
(** [proto.structs_by_name.insert(k, v)], and [proto.structs.push(v)] when
    [push] is set; likewise below. *)
Definition add_struct (push : bool) (p : protocol) (k : string) (v : structure) : protocol :=
  {| p_name := p_name p; p_endianness := p_endianness p;
     p_type_path_by_name := p_type_path_by_name p;
     p_structs_by_name := sinsert k v (p_structs_by_name p);
     p_messages_by_name := p_messages_by_name p;
     p_enums_by_name := p_enums_by_name p; p_unions_by_name := p_unions_by_name p;
     p_structs := if push then (p_structs p ++ [v])%list else p_structs p;
     p_messages := p_messages p; p_enums := p_enums p; p_unions := p_unions p |}.
Definition add_message (push : bool) (p : protocol) (k : string) (v : message) : protocol :=
  {| p_name := p_name p; p_endianness := p_endianness p;
     p_type_path_by_name := p_type_path_by_name p;
     p_structs_by_name := p_structs_by_name p;
     p_messages_by_name := sinsert k v (p_messages_by_name p);
     p_enums_by_name := p_enums_by_name p; p_unions_by_name := p_unions_by_name p;
     p_structs := p_structs p;
     p_messages := if push then (p_messages p ++ [v])%list else p_messages p;
     p_enums := p_enums p; p_unions := p_unions p |}.
Definition add_enum (push : bool) (p : protocol) (k : string) (v : enum_) : protocol :=
  {| p_name := p_name p; p_endianness := p_endianness p;
     p_type_path_by_name := p_type_path_by_name p;
     p_structs_by_name := p_structs_by_name p; p_messages_by_name := p_messages_by_name p;
     p_enums_by_name := sinsert k v (p_enums_by_name p); p_unions_by_name := p_unions_by_name p;
     p_structs := p_structs p; p_messages := p_messages p;
     p_enums := if push then (p_enums p ++ [v])%list else p_enums p;
     p_unions := p_unions p |}.
Definition add_union (push : bool) (p : protocol) (k : string) (v : union_) : protocol :=
  {| p_name := p_name p; p_endianness := p_endianness p;
     p_type_path_by_name := p_type_path_by_name p;
     p_structs_by_name := p_structs_by_name p; p_messages_by_name := p_messages_by_name p;
     p_enums_by_name := p_enums_by_name p;
     p_unions_by_name := sinsert k v (p_unions_by_name p);
     p_structs := p_structs p; p_messages := p_messages p; p_enums := p_enums p;
     p_unions := if push then (p_unions p ++ [v])%list else p_unions p |}.

(** protocol.rs:70-107: one import. *)
Definition import_one (solver : resolver) (p : protocol) (v : simport) : cres protocol :=
  r <- ok_or (r_protocol solver (si_protocol v)) (EUndefinedReference (si_protocol v)) ;;
  let t := si_type v in
  let path := ok_or (r_path solver (si_protocol v) t) ESolverError in
  match sget t (p_structs_by_name r) with
  | Some vv =>
      type_path <- path ;; Ok (add_path (add_struct false p t vv) (s_name vv) type_path)
  | None =>
    match sget t (p_enums_by_name r) with
    | Some vv =>
        type_path <- path ;; Ok (add_path (add_enum false p t vv) (e_name vv) type_path)
    | None =>
      match sget t (p_unions_by_name r) with
      | Some vv =>
          type_path <- path ;; Ok (add_path (add_union false p t vv) (u_name vv) type_path)
      | None =>
          msg <- ok_or (sget t (p_messages_by_name r))
                       (EUndefinedReference (si_protocol v ++ "::" ++ t)%string) ;;
          type_path <- path ;; Ok (add_path (add_message false p t msg) (m_name msg) type_path)
      end
    end
  end.

(** A [for] loop whose body may return early with an error. *)
Fixpoint foldM {E A S} (f : S -> A -> outcome E S) (s : S) (l : list A) : outcome E S :=
  match l with
  | [] => Ok s
  | x :: r => s' <- f s x ;; foldM f s' r
  end.

(** protocol.rs:109-115 *)
Definition define_enum (p : protocol) (v : senum) : cres protocol :=
  e <- enum_from_model v ;; Ok (add_enum true p (e_name e) e).

(** protocol.rs:116-122 *)
Definition define_struct (m : mode) (pw : protocol * world) (v : sstruct) : cres (protocol * world) :=
  let '(p, w) := pw in
  s <- structure_from_model m (p_endianness p) (p_enums_by_name p) (p_structs_by_name p) (w_next w) v ;;
  Ok (add_struct true p (s_name s) s, {| w_next := w_next w + 1; w_embedded := w_embedded w |}).

(** protocol.rs:123-129 *)
Definition define_union (p : protocol) (v : sunion) : cres protocol :=
  u <- union_from_model (p_structs_by_name p) (p_messages_by_name p) v ;;
  Ok (add_union true p (u_name u) u).

(** protocol.rs:130-136 *)
Definition define_message (pw : protocol * world) (v : smessage) : cres (protocol * world) :=
  let '(p, w) := pw in
  '(x, marks) <- message_from_model
     {| pe_endianness := p_endianness p; pe_structs := p_structs_by_name p;
        pe_messages := p_messages_by_name p; pe_unions := p_unions_by_name p |} (w_next w) v ;;
  Ok (add_message true p (m_name x) x,
      {| w_next := w_next w + 1; w_embedded := (w_embedded w ++ marks)%list |}).

(** protocol.rs:55-138. The declared endianness [sp_endianness] is not read
    (protocol.rs:58 stores Little). *)
Definition protocol_from_model (m : mode) (solver : resolver) (w : world) (value : sprotocol)
  : cres (protocol * world) :=
  p <- foldM (import_one solver) (protocol_empty (sp_name value)) (sp_imports value) ;;
  p <- foldM define_enum p (sp_enums value) ;;
  '(p, w) <- foldM (define_struct m) (p, w) (sp_structs value) ;;
  p <- foldM define_union p (sp_unions value) ;;
  foldM define_message (p, w) (sp_messages value).

(** ** compiler/src/util.rs *)

(** util.rs:34-37 *)
Record import_solver := {
  is_map : smap (string * protocol);
  is_separator : string }.
(** util.rs:39-43 *)
Definition solver_register (s : import_solver) (base : string) (p : protocol) : import_solver :=
  {| is_map := sinsert (p_name p) (base, p) (is_map s); is_separator := is_separator s |}.
(** util.rs:45-52 *)
Definition solver_new (sep : string) : import_solver := {| is_map := []; is_separator := sep |}.
(** util.rs:60-69 *)
Definition solver_resolver (s : import_solver) : resolver :=
  {| r_protocol := fun name => match sget name (is_map s) with Some (_, p) => Some p | None => None end;
     r_path := fun protocol type_name =>
       match sget protocol (is_map s) with
       | Some (base, _) => Some (base ++ is_separator s ++ type_name)%string
       | None => None
       end |}.
