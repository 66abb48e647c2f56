(** What a reported name is, for C94: a reference as it is written in the description. *)

From Coq Require Import Arith NArith Ascii String List Bool.
From Verif Require Import Base Schema SpecComp SpecCase SpecAccept.
Import ListNotations.
Local Open Scope string_scope.

(** The text [s] is written in the text [t]. *)
Definition occurs (s t : string) : Prop := exists a b, t = a ++ s ++ b.

(** [s] is a reference of the description: the protocol or the type of an import, the type of a field, the
    enumeration of a view, the beginning of a path to a discriminant, the type of a case, the type of a
    member, or the name of the member a union member goes by. *)
Inductive written (v : sprotocol) : string -> Prop :=
| wr_protocol : forall i, In i (sp_imports v) -> written v (si_protocol i)
| wr_import : forall i, In i (sp_imports v) -> written v (si_protocol i ++ "::" ++ si_type i)
| wr_field : forall d f n, In d (sp_structs v) -> In f (ss_fields d) -> sf_info f = STStruct n -> written v n
| wr_view : forall d f n, In d (sp_structs v) -> In f (ss_fields d) -> sf_view f = Some (SVEnum n) -> written v n
| wr_path : forall u s rest, In u (sp_unions v) -> sun_discriminant u = s ++ rest -> (rest = "" \/ exists r, rest = "." ++ r) ->
    written v s
| wr_case : forall u c n, In u (sp_unions v) -> In c (sun_cases u) -> su_item_type c = Some n -> written v n
| wr_item : forall d f n, In d (sp_messages v) -> In f (sm_fields d) ->
    (smf_info f = MTItem n \/ exists len, smf_info f = MTList len n) -> written v n
| wr_on : forall d f on n, In d (sp_messages v) -> In f (sm_fields d) -> smf_info f = MTUnion on n -> written v on
| wr_union : forall d f on n, In d (sp_messages v) -> In f (sm_fields d) -> smf_info f = MTUnion on n -> written v n.

(** The paths to discriminants lead to a field of a structure at once: [Structure.field]. *)
Definition short_paths (v : sprotocol) : Prop :=
  forall u parts, In u (sp_unions v) -> joined (sun_discriminant u) parts -> Forall no_dot parts -> (List.length parts <= 2)%nat.
