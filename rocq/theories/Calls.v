(** Histories of calls of the generated accessors of a structure, raw or through
    views, at any depth. Extends Place.v by the view accessors. *)

From Coq Require Import Arith NArith List.
From Verif Require Import Base Schema Codec Compiler Access Place.
Import ListNotations.
Local Open Scope N_scope.

Section Run.
Context {E : Type} (m : mode).

(** [a().b().get_c()]: structure.field.template:20-24 (structures), 25-69 (the
    getters through views). *)
Fixpoint follow_view_get (s : structure) (path : list nat) (data : bytes) : outcome E vval :=
  match path with
  | [] => Panic
  | i :: rest =>
      match nth_error (s_fields s) i, rest with
      | Some (FFixed f), [] => get_view m f data
      | Some (FStruct _ r loc), _ =>
          w <- slice data (l_byte_offset loc) (l_byte_offset loc + l_byte_size loc) ;;
          follow_view_get r rest w
      | _, _ => Panic
      end
  end.
(** [a_mut().b_mut().set_c(x)]: structure.field.template:93-97 (structures),
    98-132 (the setters through views). *)
Fixpoint follow_view_set (s : structure) (path : list nat) (data : bytes) (x : vval) : outcome E bytes :=
  match path with
  | [] => Panic
  | i :: rest =>
      match nth_error (s_fields s) i, rest with
      | Some (FFixed f), [] => set_view m f data x
      | Some (FStruct _ r loc), _ =>
          update_slice data (l_byte_offset loc) (l_byte_offset loc + l_byte_size loc)
            (fun w => follow_view_set r rest w x)
      | _, _ => Panic
      end
  end.

(** A call of a setter: raw, of a scalar or an item, or through the view of a scalar. *)
Inductive call := CRaw (p : place) (v : N) | CView (path : list nat) (x : vval).
Definition make_call (s : structure) (c : call) (data : bytes) : outcome E bytes :=
  match c with
  | CRaw p v => place_set m s p data v
  | CView path x => follow_view_set s path data x
  end.
(** The calls of a history, in turn. *)
Fixpoint make_calls (s : structure) (h : list call) (data : bytes) : outcome E bytes :=
  match h with
  | [] => Ok data
  | c :: rest => data' <- make_call s c data ;; make_calls s rest data'
  end.
End Run.
