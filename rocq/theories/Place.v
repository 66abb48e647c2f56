(** Chains of accessors that end at a scalar field or at an item of an array
    field: [a().b().get_raw_c()] and [a().b().get_c().get_raw(n)], with the
    setters. A chain is given by the field indices and the index of the item.
    It extends [path_get] and [path_set] of Access.v by array items. *)

From Coq Require Import Arith NArith List.
From Verif Require Import Base Schema Codec Compiler Access.
Import ListNotations.
Local Open Scope N_scope.

Record place := { pl_path : list nat; pl_item : option N }.

Section Run.
Context {E : Type} (m : mode).

(** structure.field.template:4-13 (scalars), 15-19 (arrays; the codec object is
    runtime/src/codec/arrays.rs:39-47 with 50-55) and 20-24 (structures). *)
Fixpoint follow_get (s : structure) (path : list nat) (item : option N) (data : bytes) : outcome E N :=
  match path with
  | [] => Panic
  | i :: rest =>
      match nth_error (s_fields s) i, rest, item with
      | Some (FFixed f), [], None => get_raw m f data
      | Some (FArray f), [], Some n => arr_get m f data n
      | Some (FStruct _ r loc), _, _ =>
          w <- slice data (l_byte_offset loc) (l_byte_offset loc + l_byte_size loc) ;;
          follow_get r rest item w
      | _, _, _ => Panic
      end
  end.
(** structure.field.template:77-86, 88-92 (with arrays.rs:69-75) and 93-97 *)
Fixpoint follow_set (s : structure) (path : list nat) (item : option N) (data : bytes) (v : N) : outcome E bytes :=
  match path with
  | [] => Panic
  | i :: rest =>
      match nth_error (s_fields s) i, rest, item with
      | Some (FFixed f), [], None => set_raw m f data v
      | Some (FArray f), [], Some n => arr_set m f data n v
      | Some (FStruct _ r loc), _, _ =>
          update_slice data (l_byte_offset loc) (l_byte_offset loc + l_byte_size loc)
            (fun w => follow_set r rest item w v)
      | _, _, _ => Panic
      end
  end.
Definition place_get (s : structure) (p : place) (data : bytes) : outcome E N :=
  follow_get s (pl_path p) (pl_item p) data.
Definition place_set (s : structure) (p : place) (data : bytes) (v : N) : outcome E bytes :=
  follow_set s (pl_path p) (pl_item p) data v.

(** The setters of a history, in turn. *)
Fixpoint place_run (s : structure) (h : list (place * N)) (data : bytes) : outcome E bytes :=
  match h with
  | [] => Ok data
  | (p, v) :: rest => data' <- place_set s p data v ;; place_run s rest data'
  end.
End Run.
