(** Specification of protocol descriptions (C59): which JSON values describe which
    protocol. A structure is an object, or an array of its members in order; a tagged
    one has the member [type] first. *)

From Coq Require Import Arith NArith ZArith String List Bool Permutation.
From Verif Require Import Base Schema Json.
Import ListNotations.
Local Open Scope string_scope.

(** Key [k] occurs exactly once, with value [x]. *)
Definition once (l : list (string * json)) (k : string) (x : json) : Prop :=
  exists l1 l2, l = (l1 ++ (k, x) :: l2)%list /\ ~ In k (map fst l1) /\ ~ In k (map fst l2).

(** Member [k] (of an array: number [i]) of [j] is [x]; [j] has no member [k]. *)
Definition has (j : json) (k : string) (i : nat) (x : json) : Prop :=
  match j with JObject l => once l k x | JArray l => nth_error l i = Some x | _ => False end.
Definition lacks (j : json) (k : string) : Prop :=
  match j with JObject l => ~ In k (map fst l) | _ => False end.

(** A structure of [n] members; an array may have more elements. *)
Definition structured (n : nat) (j : json) : Prop :=
  match j with JObject _ => True | JArray l => n <= length l | _ => False end.
(** The variant named [t] with [n] members; no more elements here. *)
Definition is_variant (t : string) (n : nat) (j : json) : Prop :=
  match j with
  | JObject l => once l "type" (JString t)
  | JArray l => nth_error l 0 = Some (JString t) /\ length l = S n
  | _ => False
  end.

(** Mandatory and optional members; [null] is as good as no member. *)
Definition req {A} (P : json -> A -> Prop) (j : json) (k : string) (i : nat) (v : A) : Prop :=
  exists x, has j k i x /\ P x v.
Definition opt {A} (P : json -> A -> Prop) (j : json) (k : string) (i : nat) (o : option A) : Prop :=
  match o with
  | Some v => exists x, has j k i x /\ x <> JNull /\ P x v
  | None => lacks j k \/ has j k i JNull
  end.
(** A list that may be left out when it is empty. *)
Definition opt_list {A} (P : json -> A -> Prop) (j : json) (k : string) (i : nat) (l : list A) : Prop :=
  (exists x, has j k i (JArray x) /\ Forall2 P x l) \/
  (l = [] /\ (lacks j k \/ has j k i JNull)).
Definition listed {A} (P : json -> A -> Prop) (x : json) (l : list A) : Prop :=
  exists xs, x = JArray xs /\ Forall2 P xs l.

Definition is_string (x : json) (s : string) : Prop := x = JString s.
Definition is_bool (x : json) (b : bool) : Prop := x = JBool b.
Definition is_size (x : json) (n : N) : Prop := x = JInt (Z.of_N n) /\ (n < 2 ^ 63)%N.
Definition is_real (x : json) (v : f64) : Prop :=
  x = JFloat v \/ exists z, x = JInt z /\ (- 2 ^ 63 <= z < 2 ^ 63)%Z /\ v = f64_of_Z z.

Section Describe.
(** How a number outside tagged members is read as a size. *)
Variable num : json -> option N.
Definition is_num (x : json) (n : N) : Prop := num x = Some n.

Definition is_view (j : json) (v : sview) : Prop :=
  match v with
  | SVEnum name => is_variant "enum" 1 j /\ req is_string j "name" 1 name
  | SVFloatRange a b => is_variant "float-range" 2 j /\ req is_real j "min" 1 a /\ req is_real j "max" 2 b
  | SVFloatMultiplier a => is_variant "float-multiplier" 1 j /\ req is_real j "multiplier" 1 a
  end.
Definition is_info (j : json) (v : sftype) : Prop :=
  match v with
  | STSigned n => is_variant "signed" 1 j /\ req is_size j "bits" 1 n
  | STUnsigned n => is_variant "unsigned" 1 j /\ req is_size j "bits" 1 n
  | STFloat n => is_variant "float" 1 j /\ req is_size j "bits" 1 n
  | STBoolean n => is_variant "boolean" 1 j /\ req is_size j "bits" 1 n
  | STStruct name => is_variant "struct" 1 j /\ req is_string j "item_type" 1 name
  end.
Definition is_field (j : json) (v : sfield) : Prop :=
  structured 4 j /\ req is_string j "name" 0 (sf_name v) /\ req is_info j "info" 1 (sf_info v) /\
  opt is_view j "view" 2 (sf_view v) /\ opt is_num j "array_len" 3 (sf_array_len v).
Definition is_struct (j : json) (v : sstruct) : Prop :=
  structured 2 j /\ req is_string j "name" 0 (ss_name v) /\ req (listed is_field) j "fields" 1 (ss_fields v).

Definition is_minfo (j : json) (v : mftype) : Prop :=
  match v with
  | MTItem t => is_variant "item" 1 j /\ req is_string j "item_type" 1 t
  | MTList n t => is_variant "list" 2 j /\ req is_size j "max_len" 1 n /\ req is_string j "item_type" 2 t
  | MTString n => is_variant "string" 1 j /\ opt is_size j "max_len" 1 n
  | MTPayload => is_variant "payload" 0 j
  | MTUnion o t => is_variant "union" 2 j /\ req is_string j "on" 1 o /\ req is_string j "item_type" 2 t
  end.
Definition is_mfield (j : json) (v : smfield) : Prop :=
  structured 3 j /\ req is_string j "name" 0 (smf_name v) /\ req is_minfo j "info" 1 (smf_info v) /\
  opt is_bool j "optional" 2 (smf_optional v).
Definition is_message (j : json) (v : smessage) : Prop :=
  structured 2 j /\ req is_string j "name" 0 (sm_name v) /\ req (listed is_mfield) j "fields" 1 (sm_fields v).

Definition is_case (j : json) (v : sucase) : Prop :=
  structured 3 j /\ req is_string j "name" 0 (su_name v) /\ req is_string j "case" 1 (su_case v) /\
  opt is_string j "item_type" 2 (su_item_type v).
Definition is_union (j : json) (v : sunion) : Prop :=
  structured 3 j /\ req is_string j "name" 0 (sun_name v) /\ req is_string j "discriminant" 1 (sun_discriminant v) /\
  req (listed is_case) j "cases" 2 (sun_cases v).

Definition is_endianness (j : json) (v : endianness) : Prop :=
  j = JString (match v with Little => "little" | Big => "big" end).
Definition is_import (j : json) (v : simport) : Prop :=
  structured 2 j /\ req is_string j "protocol" 0 (si_protocol v) /\ req is_string j "type" 1 (si_type v).
(** Each name once, in any order, with the number of its last entry. *)
Definition is_variants (j : json) (v : list (string * N)) : Prop :=
  exists l, j = JObject l /\ Forall (fun kx => exists n, is_num (snd kx) n) l /\ NoDup (map fst v) /\
    forall k n, In (k, n) v <->
      exists l1 x l2, l = (l1 ++ (k, x) :: l2)%list /\ ~ In k (map fst l2) /\ is_num x n.
Definition is_enum (j : json) (v : senum) : Prop :=
  structured 2 j /\ req is_string j "name" 0 (se_name v) /\ req is_variants j "variants" 1 (se_variants v).

Definition is_protocol (j : json) (v : sprotocol) : Prop :=
  structured 7 j /\ req is_string j "name" 0 (sp_name v) /\
  opt is_endianness j "endianness" 1 (sp_endianness v) /\
  opt_list is_import j "imports" 2 (sp_imports v) /\
  opt_list is_struct j "structs" 3 (sp_structs v) /\
  opt_list is_message j "messages" 4 (sp_messages v) /\
  opt_list is_enum j "enums" 5 (sp_enums v) /\
  opt_list is_union j "unions" 6 (sp_unions v).
End Describe.

(** The same protocol up to the order of the variants of an enumeration. *)
Definition same_protocol (v v' : sprotocol) : Prop :=
  sp_name v = sp_name v' /\ sp_endianness v = sp_endianness v' /\ sp_imports v = sp_imports v' /\
  sp_structs v = sp_structs v' /\ sp_messages v = sp_messages v' /\ sp_unions v = sp_unions v' /\
  Forall2 (fun e e' => se_name e = se_name e' /\ Permutation (se_variants e) (se_variants e')) (sp_enums v) (sp_enums v').

(** A protocol whose numbers the parser can deliver: those of tagged members are [i64],
    and [num] understands the others. *)
Definition small_info (v : sftype) : Prop :=
  match v with STSigned n | STUnsigned n | STFloat n | STBoolean n => (n < 2 ^ 63)%N | STStruct _ => True end.
Definition small_minfo (v : mftype) : Prop :=
  match v with MTList n _ | MTString (Some n) => (n < 2 ^ 63)%N | _ => True end.
Definition deliverable (num : json -> option N) (v : sprotocol) : Prop :=
  (forall s f, In s (sp_structs v) -> In f (ss_fields s) -> small_info (sf_info f) /\
     forall n, sf_array_len f = Some n -> num (JInt (Z.of_N n)) = Some n) /\
  (forall x f, In x (sp_messages v) -> In f (sm_fields x) -> small_minfo (smf_info f)) /\
  (forall e, In e (sp_enums v) -> NoDup (map fst (se_variants e)) /\
     forall k n, In (k, n) (se_variants e) -> num (JInt (Z.of_N n)) = Some n).
