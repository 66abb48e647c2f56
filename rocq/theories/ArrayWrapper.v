(** Model of the macro [generate_array_wrapper!] (runtime/src/message/macros.rs),
    which the generated code calls for every list of structures
    (compiler/src/gen/rust/message.ext.template). The generated type holds one
    [Array]; lifetimes and the types of the prefix and of the items are not
    part of the model, [size] is the [SIZE] of the item structure. *)

From Coq Require Import Arith NArith List.
From Verif Require Import Base Schema Codec Runtime.
Import ListNotations.
Local Open Scope N_scope.

(** macros.rs:32 *)
Record wrapper (St : Type) := MkWrapper { aw_0 : listing St }.
Arguments MkWrapper {St}. Arguments aw_0 {St}.

(** macros.rs:35-37 *)
Definition aw_from_raw_parts {St} (data : St) (n : N) : wrapper St := MkWrapper (li_from_raw_parts data n).
(** macros.rs:39-41 *)
Definition aw_new {St} (data : St) : wrapper St := aw_from_raw_parts data 0.
(** macros.rs:43-45 *)
Definition aw_from_array {St} (inner : listing St) : wrapper St := MkWrapper inner.
(** macros.rs:47-49 with list_base.rs:45-47 *)
Definition aw_len {St} (a : wrapper St) : N := li_len (aw_0 a).

(** macros.rs:53-55. The item is a structure over a buffer; it is written by
    structure.template:52-55. *)
Definition aw_write_item {St} (w : sink St) (m : mode) (size : N) (item : bytes) (a : wrapper St)
  : wrapper St * rres unit :=
  let '(l, r) := write_item m (struct_write w size item) (aw_0 a) in (MkWrapper l, r).
(** macros.rs:57-59 *)
Definition aw_write_items {St} (w : sink St) (m : mode) (size : N) (items : list bytes) (a : wrapper St)
  : wrapper St * rres unit :=
  let '(l, r) := write_items m (map (struct_write w size) items) (aw_0 a) in (MkWrapper l, r).

(** macros.rs:63-65 *)
Definition aw_to_ref (a : wrapper bytes) : listing bytes := li_to_ref (aw_0 a).
(** macros.rs:67-69 *)
Definition aw_from_parts (m : mode) (size : N) (data : bytes) (n : N) : rres (option (wrapper bytes)) :=
  r <- arr_from_parts m size data n ;;
  Ok (match r with Some l => Some (MkWrapper l) | None => None end).
(** macros.rs:71-73: the window of the structure that is returned. *)
Definition aw_get (m : mode) (size : N) (index : N) (a : wrapper bytes) : rres bytes :=
  arr_item m size (li_data (aw_0 a)) index.
(** macros.rs:75-77, driven to the end. *)
Definition aw_iter (size : N) (a : wrapper bytes) : rres (list bytes) := arr_items size (li_data (aw_0 a)).
(** macros.rs:81-83, followed by an update [f] of the window through the
    returned structure. *)
Definition aw_get_mut (m : mode) (size : N) (index : N) (f : bytes -> rres bytes) (a : wrapper bytes)
  : rres (wrapper bytes) :=
  data <- arr_item_mut m size (li_data (aw_0 a)) index f ;;
  Ok (aw_from_raw_parts data (aw_len a)).
(** macros.rs:85-87, driven to the end; item [i] is updated by [f i]. *)
Definition aw_iter_mut (size : N) (f : nat -> bytes -> rres bytes) (a : wrapper bytes) : rres (wrapper bytes) :=
  data <- arr_items_mut size (li_data (aw_0 a)) f ;;
  Ok (aw_from_raw_parts data (aw_len a)).
