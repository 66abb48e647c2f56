(** Specification vocabulary for C91: members of a message that are put into a message of their own. *)

From Coq Require Import Arith NArith String List Bool.
From Verif Require Import Base Schema Runtime Gen.
Import ListNotations.

(** The member [f] is of type [n], or a list of it. *)
Definition refers (f : smfield) (n : string) : Prop :=
  match smf_info f with MTItem t => t = n | MTList _ t => t = n | _ => False end.

(** [grouped before members after grp outer flat]: [flat] has the members [before], [members] and
    [after]; in [outer] there is one mandatory member of type [grp] in place of [members], and [grp]
    consists of these. No other member of [outer] is of that type. Members of the group have other
    names than the rest. *)
Definition grouped (before members after : list smfield) (grp outer flat : smessage) : Prop :=
  sm_fields flat = before ++ members ++ after /\ sm_fields grp = members /\
  (exists f, sm_fields outer = before ++ f :: after /\ smf_info f = MTItem (sm_name grp) /\
     (smf_optional f = None \/ smf_optional f = Some false)) /\
  sm_name flat = sm_name outer /\
  (forall f, In f before \/ In f after -> ~ refers f (sm_name grp)) /\
  (forall f g, In f members -> In g before \/ In g after -> smf_name f <> smf_name g).

(** [v] with other messages. *)
Definition with_messages (v : sprotocol) (l : list smessage) : sprotocol :=
  {| sp_name := sp_name v; sp_endianness := sp_endianness v; sp_imports := sp_imports v; sp_structs := sp_structs v;
     sp_messages := l; sp_enums := sp_enums v; sp_unions := sp_unions v |}.

(** [v] is a value of [outer] and [v'] the same one for [flat]; there are [nb] members before the
    group and [ng] in it. *)
Definition flattens (nb ng : nat) (v v' : value) : Prop :=
  exists vb vg va, length vb = nb /\ length vg = ng /\ v = VMsg (vb ++ VMsg vg :: va) /\ v' = VMsg (vb ++ vg ++ va).

(** Two readings agree: as many bytes and corresponding values, the same error, or both panic. *)
Definition same_reading (nb ng : nat) (r r' : rres (N * value)) : Prop :=
  match r, r' with
  | Ok (n, v), Ok (n', v') => n = n' /\ flattens nb ng v v'
  | Err e, Err e' => e = e'
  | Panic, Panic => True
  | _, _ => False
  end.
