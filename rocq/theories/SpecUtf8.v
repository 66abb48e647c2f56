(** Specification of UTF-8 (RFC 3629): the encoding of a sequence of Unicode
    scalar values. *)

From Coq Require Import NArith List Bool.
From Verif Require Import Base.
Import ListNotations.
Local Open Scope N_scope.

(** Code points except the surrogates. *)
Definition scalar_value (c : N) : Prop := c < 0xD800 \/ (0xE000 <= c /\ c < 0x110000).

Definition utf8_char (c : N) : bytes :=
  if c <? 0x80 then [c]
  else if c <? 0x800 then [0xC0 + c / 0x40; 0x80 + c mod 0x40]
  else if c <? 0x10000 then [0xE0 + c / 0x1000; 0x80 + (c / 0x40) mod 0x40; 0x80 + c mod 0x40]
  else [0xF0 + c / 0x40000; 0x80 + (c / 0x1000) mod 0x40; 0x80 + (c / 0x40) mod 0x40; 0x80 + c mod 0x40].

Definition utf8_encode (cs : list N) : bytes := flat_map utf8_char cs.

(** The byte strings that are the contents of a Rust [str]. *)
Definition is_utf8 (b : bytes) : Prop := exists cs, Forall scalar_value cs /\ b = utf8_encode cs.
