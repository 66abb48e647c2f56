(** Specification vocabulary for the contents of a compiled protocol (C55). *)

From Coq Require Import Arith NArith Ascii String List Bool.
From Verif Require Import Base Schema Compiler.
Import ListNotations.
Local Open Scope string_scope.

(** [v] with its first [k] messages only. *)
Definition only_messages (k : nat) (v : sprotocol) : sprotocol :=
  {| sp_name := sp_name v; sp_endianness := sp_endianness v; sp_imports := sp_imports v;
     sp_structs := sp_structs v; sp_messages := firstn k (sp_messages v); sp_enums := sp_enums v;
     sp_unions := sp_unions v |}.
(** [v] without its own definitions. *)
Definition only_imports (v : sprotocol) : sprotocol :=
  {| sp_name := sp_name v; sp_endianness := sp_endianness v; sp_imports := sp_imports v;
     sp_structs := []; sp_messages := []; sp_enums := []; sp_unions := [] |}.

(** Lists of the same length, related at every index. *)
Definition each {A B} (R : nat -> A -> B -> Prop) (l : list A) (l' : list B) : Prop :=
  length l = length l' /\ forall k a b, nth_error l k = Some a -> nth_error l' k = Some b -> R k a b.

(** The last item of a list with a given name. *)
Definition named_last {A} (name : A -> string) (l : list A) (n : string) : option A :=
  find (fun x => String.eqb (name x) n) (rev l).
Definition or_else {A} (x y : option A) : option A := match x with Some _ => x | None => y end.

(** What a type name of another protocol stands for, when imported: a structure, or else an
    enum, or else a union, or else a message. *)
Definition struct_there (q : protocol) (n : string) : option structure := sget n (p_structs_by_name q).
Definition enum_there (q : protocol) (n : string) : option enum_ :=
  match struct_there q n with Some _ => None | None => sget n (p_enums_by_name q) end.
Definition union_there (q : protocol) (n : string) : option union_ :=
  match struct_there q n, sget n (p_enums_by_name q) with None, None => sget n (p_unions_by_name q) | _, _ => None end.
Definition message_there (q : protocol) (n : string) : option message :=
  match struct_there q n, sget n (p_enums_by_name q), sget n (p_unions_by_name q) with
  | None, None, None => sget n (p_messages_by_name q)
  | _, _, _ => None
  end.
(** The last import of [n] that brings something of a kind. *)
Fixpoint last_import {A} (kind : protocol -> string -> option A) (solver : resolver) (l : list simport) (n : string) : option A :=
  match l with
  | [] => None
  | i :: r =>
      or_else (last_import kind solver r n)
        (if String.eqb (si_type i) n
         then match r_protocol solver (si_protocol i) with Some q => kind q n | None => None end
         else None)
  end.
