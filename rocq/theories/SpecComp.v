(** Specification vocabulary for the schema compiler (C14-C21). *)

From Coq Require Import Arith NArith Ascii String List Bool.
From Verif Require Import Base Schema Compiler SpecStruct.
Import ListNotations.
Local Open Scope N_scope.

(** A protocol that the compiler can produce: its imports are resolved by
    protocols that the compiler produced. *)
Inductive compiled (m : mode) : protocol -> Prop :=
| compiled_intro : forall solver w v p w',
    (forall name q, r_protocol solver name = Some q -> compiled m q) ->
    protocol_from_model m solver w v = Ok (p, w') ->
    compiled m p.

(** The extent of a value of this type is only known from the end of the input:
    a payload or a list of messages, directly or inside a message or a union. *)
Inductive open_ended : mfield_type -> Prop :=
| oe_payload : open_ended TPayload
| oe_list : forall ty x, open_ended (TList ty x)
| oe_message : forall x f, In f (m_fields x) -> open_ended (mf_ty f) ->
    open_ended (TRef (RMessage x))
| oe_union : forall u on i c x f, In c (u_cases u) -> uc_item c = Some (RMessage x) ->
    In f (m_fields x) -> open_ended (mf_ty f) -> open_ended (TUnion u on i).

(** Encodings of different values of this type can have different lengths
    (presence bytes of optional fields and the choice of a union's case are not
    counted, as in the compiler). *)
Inductive variable_size : mfield_type -> Prop :=
| vs_open : forall t, open_ended t -> variable_size t
| vs_string : variable_size TNullTerminatedString
| vs_varchar : forall ty, variable_size (TVarcharString ty)
| vs_array : forall ty s, variable_size (TArray ty s)
| vs_message : forall x f, In f (m_fields x) -> variable_size (mf_ty f) ->
    variable_size (TRef (RMessage x))
| vs_union : forall u on i c x f, In c (u_cases u) -> uc_item c = Some (RMessage x) ->
    In f (m_fields x) -> variable_size (mf_ty f) -> variable_size (TUnion u on i).

(** Names a description brings into scope by importing them. *)
Definition imported (v : sprotocol) (n : string) : Prop := In n (map si_type (sp_imports v)).
(** [n] is the name of one of the structures/messages declared before the
    [k]-th. *)
Definition earlier_struct (v : sprotocol) (k : nat) (n : string) : Prop :=
  In n (map ss_name (firstn k (sp_structs v))).
Definition earlier_message (v : sprotocol) (k : nat) (n : string) : Prop :=
  In n (map sm_name (firstn k (sp_messages v))).
Definition some_struct (v : sprotocol) (n : string) : Prop := In n (map ss_name (sp_structs v)).
Definition some_enum (v : sprotocol) (n : string) : Prop := In n (map se_name (sp_enums v)).
Definition some_union (v : sprotocol) (n : string) : Prop := In n (map sun_name (sp_unions v)).

(** The name a message field refers to. *)
Definition item_reference (t : mftype) : option string :=
  match t with
  | MTItem n | MTList _ n => Some n
  | _ => None
  end.

(** Part of a description: same imports and enums, the first [k] structures
    only, no union and no message. *)
Definition only_structs (k : nat) (v : sprotocol) : sprotocol :=
  {| sp_name := sp_name v; sp_endianness := sp_endianness v; sp_imports := sp_imports v;
     sp_structs := firstn k (sp_structs v); sp_messages := []; sp_enums := sp_enums v;
     sp_unions := [] |}.

Definition with_endianness (e : option endianness) (v : sprotocol) : sprotocol :=
  {| sp_name := sp_name v; sp_endianness := e; sp_imports := sp_imports v;
     sp_structs := sp_structs v; sp_messages := sp_messages v; sp_enums := sp_enums v;
     sp_unions := sp_unions v |}.

(** Widths the compiler handles without overflow in its own arithmetic. *)
Definition width_ok (f : sfield) : Prop :=
  match sf_info f with
  | STSigned n => 1 <= n <= 64
  | STFloat n => match sf_view f with Some (SVFloatRange _ _) => n < 64 | _ => True end
  | _ => True
  end.

(** Discriminant paths: [path_to_scalar s parts] says that the components
    [parts] lead from structure [s] to a scalar field (each component names the
    first field of that name). *)
Definition first_named (n : string) (l : list field) (f : field) : Prop :=
  exists k, nth_error l k = Some f /\ field_name f = n /\
    forall j g, (j < k)%nat -> nth_error l j = Some g -> field_name g <> n.
Inductive path_to_scalar : structure -> list string -> Prop :=
| pts_scalar : forall s n f rest, first_named n (s_fields s) (FFixed f) ->
    path_to_scalar s (n :: rest)
| pts_struct : forall s n name r loc rest, first_named n (s_fields s) (FStruct name r loc) ->
    path_to_scalar r rest -> path_to_scalar s (n :: rest).

(** The components lead to a structure, not to a scalar (also when there are
    none). *)
Inductive path_to_struct : structure -> list string -> Prop :=
| pst_nil : forall s, path_to_struct s []
| pst_cons : forall s n name r loc rest, first_named n (s_fields s) (FStruct name r loc) ->
    path_to_struct r rest -> path_to_struct s (n :: rest).

(** All sizes of initial parts of the structure fit in 64 bits. *)
Definition layout_fits (structs : smap structure) (d : sstruct) : Prop :=
  forall k t, declared_total structs (firstn k (ss_fields d)) = Some t -> t < 2 ^ 64.

(** [n] is the dot-joined list [parts]. *)
Definition joined (n : string) (parts : list string) : Prop := String.concat "." parts = n.
Definition no_dot (s : string) : Prop := forall i, String.get i s <> Some "."%char.

(** What importing [t] from [q] must make visible: the first of structure,
    enum, union and message named [t]. *)
Inductive imports_as (q p : protocol) (t : string) : Prop :=
| ia_struct : forall s, sget t (p_structs_by_name q) = Some s ->
    sget t (p_structs_by_name p) = Some s -> imports_as q p t
| ia_enum : forall e, sget t (p_structs_by_name q) = None -> sget t (p_enums_by_name q) = Some e ->
    sget t (p_enums_by_name p) = Some e -> imports_as q p t
| ia_union : forall u, sget t (p_structs_by_name q) = None -> sget t (p_enums_by_name q) = None ->
    sget t (p_unions_by_name q) = Some u -> sget t (p_unions_by_name p) = Some u -> imports_as q p t
| ia_message : forall x, sget t (p_structs_by_name q) = None -> sget t (p_enums_by_name q) = None ->
    sget t (p_unions_by_name q) = None -> sget t (p_messages_by_name q) = Some x ->
    sget t (p_messages_by_name p) = Some x -> imports_as q p t.

(** Byte order used by a compiled field. *)
Definition field_endi (e : endianness) (f : field) : Prop :=
  match f with
  | FFixed f => ff_endianness f = e
  | FArray f => fa_endianness f = e
  | FStruct _ _ _ => True
  end.

(** Width of a storage type. *)
Definition storage_bits (t : fixed_type) : N := 8 * N.of_nat (get_byte_size t).

(** Length prefix of a compiled field and declared maximum of a described field. *)
Definition prefix_of (t : mfield_type) : option fixed_type :=
  match t with
  | TVarcharString ty | TArray ty _ | TList ty _ => Some ty
  | _ => None
  end.
Definition declared_max (t : mftype) : option N :=
  match t with
  | MTString (Some n) | MTList n _ => Some n
  | _ => None
  end.

(** The name under which generated code refers to type [t]: the path of its last import,
    or, when it is not imported, its own name. *)
Definition printed_name (solver : resolver) (v : sprotocol) (t : string) : string :=
  match find (fun i => String.eqb (si_type i) t) (rev (sp_imports v)) with
  | None => t
  | Some i => match r_path solver (si_protocol i) t with Some path => path | None => t end
  end.
(** The same with a prefix for types that are not imported. *)
Definition printed_name_with (solver : resolver) (v : sprotocol) (prefix t : string) : string :=
  match find (fun i => String.eqb (si_type i) t) (rev (sp_imports v)) with
  | None => String.append prefix t
  | Some i => match r_path solver (si_protocol i) t with Some path => path | None => String.append prefix t end
  end.
