(** Specification vocabulary for C77: a description in which names are replaced. *)

From Coq Require Import NArith Ascii String List.
From Verif Require Import Base Schema Compiler Access Runtime Gen SpecComp.
Import ListNotations.
Local Open Scope string_scope.

(** New names for protocols, for definitions (enums, structures, unions and messages), for fields of
    structures, for members of messages, for variants of enums and for cases of unions. *)
Record renaming := {
  r_proto : string -> string;
  r_type : string -> string;
  r_field : string -> string;
  r_member : string -> string;
  r_variant : string -> string;
  r_case : string -> string }.

Definition injective (f : string -> string) : Prop := forall a b, f a = f b -> a = b.
(** A label that starts like a number. *)
Definition like_number (s : string) : Prop :=
  exists c r, s = String c r /\ In c ["0"; "1"; "2"; "3"; "4"; "5"; "6"; "7"; "8"; "9"; "+"; "-"]%char.
(** Different names stay different, but for the cases of unions, which nothing refers to. Names that make
    up the path of a discriminant get no dots. Labels of cases that are numbers stay. *)
Definition proper (r : renaming) : Prop :=
  injective (r_proto r) /\ injective (r_type r) /\ injective (r_field r) /\ injective (r_member r) /\ injective (r_variant r) /\
  (forall s, no_dot s -> no_dot (r_type r s)) /\ (forall s, no_dot s -> no_dot (r_field r s)) /\
  (forall s, like_number s -> r_variant r s = s).

(** ** The description *)

Definition ren_sftype (r : renaming) (t : sftype) : sftype :=
  match t with STStruct n => STStruct (r_type r n) | t => t end.
Definition ren_sview (r : renaming) (v : sview) : sview :=
  match v with SVEnum n => SVEnum (r_type r n) | v => v end.
Definition ren_sfield (r : renaming) (f : sfield) : sfield :=
  {| sf_name := r_field r (sf_name f); sf_info := ren_sftype r (sf_info f);
     sf_view := option_map (ren_sview r) (sf_view f); sf_array_len := sf_array_len f |}.
Definition ren_sstruct (r : renaming) (d : sstruct) : sstruct :=
  {| ss_name := r_type r (ss_name d); ss_fields := map (ren_sfield r) (ss_fields d) |}.
Definition ren_senum (r : renaming) (d : senum) : senum :=
  {| se_name := r_type r (se_name d);
     se_variants := map (fun kv => (r_variant r (fst kv), snd kv)) (se_variants d) |}.
Definition ren_mftype (r : renaming) (t : mftype) : mftype :=
  match t with
  | MTItem n => MTItem (r_type r n)
  | MTList k n => MTList k (r_type r n)
  | MTUnion on n => MTUnion (r_member r on) (r_type r n)
  | t => t
  end.
Definition ren_smfield (r : renaming) (f : smfield) : smfield :=
  {| smf_name := r_member r (smf_name f); smf_info := ren_mftype r (smf_info f); smf_optional := smf_optional f |}.
Definition ren_smessage (r : renaming) (d : smessage) : smessage :=
  {| sm_name := r_type r (sm_name d); sm_fields := map (ren_smfield r) (sm_fields d) |}.
Definition ren_sucase (r : renaming) (c : sucase) : sucase :=
  {| su_name := r_case r (su_name c); su_case := r_variant r (su_case c);
     su_item_type := option_map (r_type r) (su_item_type c) |}.
(** The discriminant is a structure and fields, separated by dots. *)
Definition renamed_union (r : renaming) (d d' : sunion) : Prop :=
  sun_name d' = r_type r (sun_name d) /\ sun_cases d' = map (ren_sucase r) (sun_cases d) /\
  exists n parts, joined (sun_discriminant d) (n :: parts) /\ Forall no_dot (n :: parts) /\
    joined (sun_discriminant d') (r_type r n :: map (r_field r) parts).
Definition ren_simport (r : renaming) (i : simport) : simport :=
  {| si_protocol := r_proto r (si_protocol i); si_type := r_type r (si_type i) |}.
Definition renamed (r : renaming) (d d' : sprotocol) : Prop :=
  sp_name d' = r_proto r (sp_name d) /\ sp_endianness d' = sp_endianness d /\
  sp_imports d' = map (ren_simport r) (sp_imports d) /\
  sp_enums d' = map (ren_senum r) (sp_enums d) /\
  sp_structs d' = map (ren_sstruct r) (sp_structs d) /\
  Forall2 (renamed_union r) (sp_unions d) (sp_unions d') /\
  sp_messages d' = map (ren_smessage r) (sp_messages d).

(** ** The compiled protocol *)

Definition ren_enum (r : renaming) (e : enum_) : enum_ :=
  let keys := map (fun kv => (r_variant r (fst kv), snd kv : N)) in
  {| e_name := r_type r (e_name e); e_largest := e_largest e; e_variants := keys (e_variants e); e_map := keys (e_map e) |}.
Definition ren_view (r : renaming) (v : fview) : fview :=
  match v with VEnum e => VEnum (ren_enum r e) | v => v end.
Definition ren_fixed (r : renaming) (f : fixed_field) : fixed_field :=
  {| ff_name := r_field r (ff_name f); ff_ty := ff_ty f; ff_loc := ff_loc f; ff_view := ren_view r (ff_view f);
     ff_endianness := ff_endianness f |}.
Definition ren_array (r : renaming) (f : array_field) : array_field :=
  {| fa_name := r_field r (fa_name f); fa_ty := fa_ty f; fa_array_len := fa_array_len f; fa_loc := fa_loc f;
     fa_endianness := fa_endianness f |}.
Fixpoint ren_field (r : renaming) (f : field) : field :=
  match f with
  | FFixed v => FFixed (ren_fixed r v)
  | FArray v => FArray (ren_array r v)
  | FStruct n s l => FStruct (r_field r n) (ren_struct r s) l
  end
with ren_struct (r : renaming) (s : structure) : structure :=
  match s with
  | MkStructure i n fs b k => MkStructure i (r_type r n) (map (ren_field r) fs) b k
  end.
Definition ren_disc (r : renaming) (d : disc_field) : disc_field :=
  {| d_root := ren_struct r (d_root d); d_leaf := ren_struct r (d_leaf d); d_leaf_index := d_leaf_index d;
     d_index_list := d_index_list d |}.
Fixpoint ren_ref (r : renaming) (x : referenced) : referenced :=
  match x with RStruct s => RStruct (ren_struct r s) | RMessage y => RMessage (ren_message r y) end
with ren_ty (r : renaming) (t : mfield_type) : mfield_type :=
  match t with
  | TRef x => TRef (ren_ref r x)
  | TArray ty s => TArray ty (ren_struct r s)
  | TUnion u on i => TUnion (ren_union r u) (r_member r on) i
  | TList ty y => TList ty (ren_message r y)
  | t => t
  end
with ren_mfield (r : renaming) (f : mfield) : mfield :=
  match f with MkMField n t o z e => MkMField (r_member r n) (ren_ty r t) o z e end
with ren_message (r : renaming) (x : message) : message :=
  match x with MkMessage i n fs z => MkMessage i (r_type r n) (map (ren_mfield r) fs) z end
with ren_ucase (r : renaming) (c : ucase) : ucase :=
  match c with MkUCase n k i => MkUCase (r_case r n) k (match i with Some x => Some (ren_ref r x) | None => None end) end
with ren_union (r : renaming) (u : union_) : union_ :=
  match u with MkUnion n d cs z => MkUnion (r_type r n) (ren_disc r d) (map (ren_ucase r) cs) z end.

Definition ren_map {A} (r : renaming) (f : A -> A) (l : smap A) : smap A := map (fun kv => (r_type r (fst kv), f (snd kv))) l.
(** The same protocol with other names; the paths to imported types may be any. *)
Definition alike (r : renaming) (p p' : protocol) : Prop :=
  p_name p' = r_proto r (p_name p) /\ p_endianness p' = p_endianness p /\
  p_structs_by_name p' = ren_map r (ren_struct r) (p_structs_by_name p) /\
  p_messages_by_name p' = ren_map r (ren_message r) (p_messages_by_name p) /\
  p_enums_by_name p' = ren_map r (ren_enum r) (p_enums_by_name p) /\
  p_unions_by_name p' = ren_map r (ren_union r) (p_unions_by_name p) /\
  p_structs p' = map (ren_struct r) (p_structs p) /\
  p_messages p' = map (ren_message r) (p_messages p) /\
  p_enums p' = map (ren_enum r) (p_enums p) /\
  p_unions p' = map (ren_union r) (p_unions p).
(** The protocols that imports are resolved to. *)
Definition solvers_alike (r : renaming) (solver solver' : resolver) : Prop :=
  (forall n, match r_protocol solver n, r_protocol solver' (r_proto r n) with
             | Some p, Some p' => alike r p p'
             | None, None => True
             | _, _ => False
             end) /\
  (forall n t, r_path solver n t = None <-> r_path solver' (r_proto r n) (r_type r t) = None).

(** The same error, whatever name it mentions. *)
Definition same_error (e e' : cerror) : Prop :=
  match e, e' with
  | EUndefinedReference _, EUndefinedReference _ => True
  | EInvalidUnionCase _, EInvalidUnionCase _ => True
  | _, _ => e' = e
  end.
(** Both compile, both are rejected for the same reason, or both panic. *)
Definition same_outcome {A B} (R : A -> B -> Prop) (x : cres A) (y : cres B) : Prop :=
  match x, y with
  | Ok a, Ok b => R a b
  | Err e, Err e' => same_error e e'
  | Panic, Panic => True
  | _, _ => False
  end.

(** ** What programs do *)

(** Messages of which programs read and write the same bytes. *)
Definition same_wire (x x' : message) : Prop := forall m emb,
  (forall b, read_msg m emb x' b = read_msg m emb x b) /\
  (forall b, read_msg_offsets m emb x' b = read_msg_offsets m emb x b) /\
  (forall St (w : sink St) v s, write_msg m w x' v s = write_msg m w x v s) /\
  (forall v, size_of_msg m x' v = size_of_msg m x v).
(** Structures whose fields, one by one, are accessed alike; [r_field] gives the new names. *)
Definition same_access (r : renaming) (s s' : structure) : Prop :=
  s_byte_size s' = s_byte_size s /\ length (s_fields s') = length (s_fields s) /\
  (forall (m : mode) path data, path_get (E:=rerror) m s' path data = path_get m s path data) /\
  (forall (m : mode) path data v, path_set (E:=rerror) m s' path data v = path_set m s path data v) /\
  forall i, match nth_error (s_fields s) i, nth_error (s_fields s') i with
    | Some (FFixed f), Some (FFixed f') => ff_name f' = r_field r (ff_name f) /\ forall (m : mode) data,
        get_view (E:=rerror) m f' data = get_view m f data /\ (forall v, set_view (E:=rerror) m f' data v = set_view m f data v)
    | Some (FArray f), Some (FArray f') => fa_name f' = r_field r (fa_name f) /\ forall (m : mode) data,
        arr_len (E:=rerror) f' data = arr_len f data /\ arr_iter (E:=rerror) f' data = arr_iter f data /\
        (forall k, arr_get (E:=rerror) m f' data k = arr_get m f data k) /\
        (forall k v, arr_set (E:=rerror) m f' data k v = arr_set m f data k v)
    | Some (FStruct n _ l), Some (FStruct n' _ l') => n' = r_field r n /\ l' = l
    | None, None => True
    | _, _ => False
    end.
