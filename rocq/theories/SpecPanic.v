(** When the compiler panics, for C16: the causes, in terms of the description. *)

From Coq Require Import Arith NArith Ascii String List Bool.
From Verif Require Import Base Schema Compiler SpecStruct SpecComp SpecCase.
Import ListNotations.
Local Open Scope N_scope.

(** The view is one that the type of the field can have. *)
Definition view_fits (enums : smap enum_) (f : sfield) : Prop :=
  match sf_view f, sf_info f with
  | None, STFloat b => b = 32 \/ b = 64
  | None, _ => True
  | Some (SVEnum n), STUnsigned _ => exists e, sget n enums = Some e
  | Some (SVFloatRange _ _), STFloat _ | Some (SVFloatMultiplier _), STFloat _ => True
  | Some _, _ => False
  end.
Definition items_of (f : sfield) : N := match sf_array_len f with Some n => n | None => 1 end.
(** Booleans of all widths are accepted (C15). *)
Definition width_fits (f : sfield) : Prop :=
  match sf_info f with STBoolean _ => True | t => exists b, get_bit_size t = Some b /\ 1 <= b <= 64 end.

(** The field [f] overflows 64 bits in the arithmetic of the compiler, after fields of
    [off] bits: in the limits of its view, in its size, or in the size of the structure
    up to its end. The second and the third are computed only if the steps before them
    found no error. *)
Inductive overflows (enums : smap enum_) (structs : smap structure) (off : N) (f : sfield) : Prop :=
| over_signed : forall b, sf_info f = STSigned b -> sf_view f = None -> b = 0 \/ 64 < b -> overflows enums structs off f
| over_range : forall b lo hi, sf_info f = STFloat b -> sf_view f = Some (SVFloatRange lo hi) -> 64 <= b ->
    overflows enums structs off f
| over_items : forall b, get_bit_size (sf_info f) = Some b -> view_fits enums f -> 2 ^ 64 <= b * items_of f ->
    overflows enums structs off f
| over_end : forall b, get_bit_size (sf_info f) = Some b -> view_fits enums f -> width_fits f ->
    1 < items_of f -> (b * items_of f) mod 8 = 0 -> 2 ^ 64 <= off + b * items_of f ->
    overflows enums structs off f
| over_end_one : forall b, get_bit_size (sf_info f) = Some b -> view_fits enums f -> width_fits f ->
    items_of f <= 1 -> 2 ^ 64 <= off + b * items_of f -> overflows enums structs off f
| over_struct : forall n r, sf_info f = STStruct n -> sget n structs = Some r -> 2 ^ 64 <= off + s_bit_size r ->
    overflows enums structs off f.

(** The first fields of a structure. *)
Definition first_fields (k : nat) (d : sstruct) : sstruct :=
  {| ss_name := ss_name d; ss_fields := firstn k (ss_fields d) |}.
(** With overflow checks, some field overflows and the fields before it are accepted. *)
Definition struct_panics (m : mode) (enums : smap enum_) (structs : smap structure) (d : sstruct) : Prop :=
  m = Debug /\ exists k f s, nth_error (ss_fields d) k = Some f /\
    structure_from_model Debug Little enums structs 0 (first_fields k d) = Ok s /\
    overflows enums structs (s_bit_size s) f.

(** [leads s parts k r]: the components lead from [s] to the structure [r], which is
    field number [k] of the structure it is in. *)
Inductive leads : structure -> list string -> nat -> structure -> Prop :=
| leads_last : forall s n k name r loc, first_at n (s_fields s) k (FStruct name r loc) -> leads s [n] k r
| leads_more : forall s n i name r loc parts k t, first_at n (s_fields s) i (FStruct name r loc) ->
    leads r parts k t -> leads s (n :: parts) k t.

(** The discriminant is the name of a structure, or leads to a structure which has no
    scalar in the place that the structure itself has in its parent; in the second case
    this is noticed only if there is a case. *)
Definition union_panics (structs : smap structure) (u : sunion) : Prop :=
  exists n parts root, joined (sun_discriminant u) (n :: parts) /\ Forall no_dot (n :: parts) /\
    sget n structs = Some root /\
    (parts = [] \/
     sun_cases u <> [] /\ exists k r, leads root parts k r /\ forall f, nth_error (s_fields r) k <> Some (FFixed f)).

(** Part of a description: imports, enums and structures, the first [k] unions, no
    message. *)
Definition only_unions (k : nat) (v : sprotocol) : sprotocol :=
  {| sp_name := sp_name v; sp_endianness := sp_endianness v; sp_imports := sp_imports v;
     sp_structs := sp_structs v; sp_messages := []; sp_enums := sp_enums v;
     sp_unions := firstn k (sp_unions v) |}.
