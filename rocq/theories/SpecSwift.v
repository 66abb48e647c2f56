(** Specification of the Swift runtime: what its buffers hold, the wire format of
    its types, and the Rust code of the same types. *)

From Coq Require Import Arith NArith ZArith List Bool.
From Verif Require Import Base Schema Codec Bits Compiler Utf8 SpecUtf8 Runtime SpecWire Swift.
Import ListNotations.
Local Open Scope N_scope.

(** ** Buffers *)

(** [b] is a window on bytes of its storage, and these bytes are [d]. *)
Definition holds (b : dbuf) (d : bytes) : Prop :=
  exists before after, db_data b = before ++ d ++ after /\
    db_start b = Z.of_nat (length before) /\
    db_end b = Z.of_nat (length before + length d) /\
    (Z.of_nat (length (db_data b)) < 2 ^ 63)%Z.

(** The same, [after] being the bytes of the storage behind the window. *)
Definition holds_before (b : dbuf) (d after : bytes) : Prop :=
  exists before, db_data b = before ++ d ++ after /\
    db_start b = Z.of_nat (length before) /\
    db_end b = Z.of_nat (length before + length d) /\
    (Z.of_nat (length (db_data b)) < 2 ^ 63)%Z.

(** A buffer that was created empty and only written to, [d] being what was
    written: the next write goes to the end. *)
Definition written (b : dbuf) (d : bytes) : Prop :=
  b = {| db_data := d; db_mut := true; db_start := 0;
         db_end := Z.of_nat (length d); db_cursor := Z.of_nat (length d) |}.

(** ** The wire format *)

Definition endian (o : order) : endianness := match o with LE => Little | BE => Big end.

(** The unsigned integer types of the runtime: 8, 16, 32 and 64 bits. *)
Definition uint_size (sz : nat) : Prop := sz = 1%nat \/ sz = 2%nat \/ sz = 4%nat \/ sz = 8%nat.

Fixpoint well_typed (t : sty) : Prop :=
  match t with
  | SVal _ sz | SVarchar _ sz => uint_size sz
  | SNts => True
  | SOpt t => well_typed t
  | SList _ sz t | SArray _ sz _ t => uint_size sz /\ well_typed t
  end.

Section Wire.
(** [present p]: byte [p] announces that an optional value follows. *)
Variable present : N -> Prop.

(** [b] is an encoding of the value [v] of type [t]. *)
Fixpoint s_enc (t : sty) (v : sval) (b : bytes) : Prop :=
  match t, v with
  | SVal o sz, SN n => number (endian o) sz n b
  | SNts, SS s => is_utf8 s /\ no_nul s /\ b = s ++ [0]
  | SVarchar o sz, SS s => is_utf8 s /\ exists p, number (endian o) sz (len s) p /\ b = p ++ s
  | SOpt _, SO None => b = [0]
  | SOpt t, SO (Some x) => exists p b', 0 < p < 256 /\ present p /\ b = p :: b' /\ s_enc t x b'
  | SList o sz t, SL l =>
      exists p chunks, number (endian o) sz (len l) p /\ Forall2 (s_enc t) l chunks /\
        b = p ++ concat chunks
  | SArray o sz k t, SL l =>
      exists p chunks, number (endian o) sz (len l) p /\ Forall2 (s_enc t) l chunks /\
        Forall (fun c => Z.of_nat (length c) = k) chunks /\
        b = p ++ concat chunks
  | _, _ => False
  end.

End Wire.

(** Any byte but 0 announces a value; writers use 1. *)
Definition s_encodes_lax : sty -> sval -> bytes -> Prop := s_enc (fun _ => True).
Definition s_encodes : sty -> sval -> bytes -> Prop := s_enc (fun p => p = 1).

(** ** What the Rust runtime writes for the same type (the items of a list are
    written one after the other, [Runtime.write_items], then the listing is). *)
Fixpoint rust_write (t : sty) (v : sval) : wr bytes :=
  match t, v with
  | SVal o sz, SN n => value_write vec_sink o sz n
  | SNts, SS s => nts_write vec_sink s
  | SVarchar o sz, SS s => varchar_write vec_sink o sz s
  | SOpt t, SO v => optional_write vec_sink (rust_write t) v
  | SList o sz t, SL l | SArray o sz _ t, SL l =>
      let items := fst (write_items Release (map (rust_write t) l) (li_new [])) in
      listing_write vec_sink o sz (li_data items) (li_len items)
  | _, _ => wpanic
  end.

(** ** Values the Swift reader reads correctly wherever they are: numbers, strings
    with a length that are not empty, absent values, and lists of these that are
    not empty. *)
Fixpoint plain (t : sty) (v : sval) : Prop :=
  match t, v with
  | SVal _ _, SN _ => True
  | SVarchar _ _, SS s => s <> []
  | SOpt _, SO None => True
  | SList _ _ t, SL l | SArray _ _ _ t, SL l => l <> [] /\ Forall (plain t) l
  | _, _ => False
  end.

(** [String(decoding:)] leaves UTF-8 as it is. *)
Definition decodes_utf8 (decoding : bytes -> bytes) : Prop :=
  forall s, is_utf8 s -> decoding s = s.

(** It never returns less than it was given: what is not UTF-8 is replaced, at
    most three bytes at a time, by the three bytes of U+FFFD. *)
Definition never_shrinks (decoding : bytes -> bytes) : Prop :=
  forall d, (length d <= length (decoding d))%nat.

(** ** Numbers in a buffer *)

(** [b'] is [b] after the bytes of the window of [b] were replaced by [d]; the
    rest of the storage and the size of the window are unchanged. *)
Definition stored (b : dbuf) (d : bytes) (b' : dbuf) : Prop :=
  exists before old after, db_data b = before ++ old ++ after /\
    db_start b = Z.of_nat (length before) /\
    db_end b = Z.of_nat (length before + length old) /\
    length d = length old /\
    db_data b' = before ++ d ++ after /\ db_start b' = db_start b /\ db_end b' = db_end b.

(** The same result in Swift and in Rust. *)
Definition same_read (s : sres N) (r : outcome rerror N) : Prop := exists n, s = Ok n /\ r = Ok n.
(** [b] is written to in Swift, its bytes in Rust. *)
Definition same_write (b : dbuf) (s : sres dbuf) (r : outcome rerror bytes) : Prop :=
  exists w b', r = Ok w /\ s = Ok b' /\ stored b w b'.

(** A buffer that was not written to since it was made, so that a write starts at
    its first byte. *)
Definition untouched (b : dbuf) : Prop := db_cursor b = db_start b.

(** The eight bytes an unaligned access works on: the window [w], the byte behind it and zeros. *)
Definition copied (w : bytes) (x : N) : bytes :=
  firstn 8 (w ++ [x]) ++ repeat 0 (8 - length (firstn 8 (w ++ [x]))).
(** [b'] is [b] with these eight bytes written from the start of the window [w] on, whatever was
    there, and its window is these eight bytes. *)
Definition copied_over (b : dbuf) (w : bytes) (x : N) (after : bytes) (b' : dbuf) : Prop :=
  exists before, db_data b = before ++ w ++ x :: after /\
    db_data b' = before ++ copied w x ++ skipn 8 (w ++ x :: after) /\
    db_start b' = db_start b /\ db_end b' = (db_start b + 8)%Z /\ db_cursor b' = db_end b'.

(** Fields of [bs] bits at bit [bo] of a byte, read as a number of [sz] bytes: the
    number has that many bits, and they are fewer than 64. *)
Definition bits_fit (o : order) (sz : nat) (bo bs : N) : Prop :=
  0 < bs < 64 /\ bo < 8 /\ bs <= 8 * N.of_nat sz /\
  match o with LE => True | BE => bo + bs mod 8 <= 8 /\ 8 - bs mod 8 - bo < 8 end.

(** Values of Swift: numbers within their type, strings of UTF-8; strings to be
    ended by 0 contain none; lists to be counted with 16 bits are short enough;
    array items have the size they declare. *)
Fixpoint representable (t : sty) (v : sval) : Prop :=
  match t, v with
  | SVal _ sz, SN n => n < tmod sz
  | SNts, SS s => is_utf8 s /\ no_nul s
  | SVarchar _ sz, SS s => is_utf8 s /\ (sz = 2%nat -> len s < 2 ^ 16)
  | SOpt t, SO v => match v with Some x => representable t x | None => True end
  | SList _ sz t, SL l => (sz = 2%nat -> len l < 2 ^ 16) /\ Forall (representable t) l
  | SArray _ sz k t, SL l =>
      (sz = 2%nat -> len l < 2 ^ 16) /\ Forall (representable t) l /\
      Forall (fun x => forall e, s_encodes t x e -> Z.of_nat (length e) = k) l
  | _, _ => False
  end.

(** The values of a type in Swift: any number of the type, any string, any number
    of items. *)
Fixpoint swift_value (t : sty) (v : sval) : Prop :=
  match t, v with
  | SVal _ sz, SN n => n < tmod sz
  | SNts, SS s | SVarchar _ _, SS s => is_utf8 s
  | SOpt t, SO v => match v with Some x => swift_value t x | None => True end
  | SList _ _ t, SL l | SArray _ _ _ t, SL l => Forall (swift_value t) l
  | _, _ => False
  end.

(** Somewhere in [v] a string or list is too long for the number in front of it,
    which is not one of 16 bits. *)
Fixpoint too_long (t : sty) (v : sval) : Prop :=
  match t, v with
  | SVarchar _ sz, SS s => sz <> 2%nat /\ tmod sz <= len s
  | SOpt t, SO (Some x) => too_long t x
  | SList _ sz t, SL l | SArray _ sz _ t, SL l => (sz <> 2%nat /\ tmod sz <= len l) \/ Exists (too_long t) l
  | _, _ => False
  end.

(** Types whose values are written without writing a single byte. *)
Fixpoint no_flags (t : sty) : Prop :=
  match t with
  | SVal _ _ | SVarchar _ _ => True
  | SNts | SOpt _ => False
  | SList _ _ t | SArray _ _ _ t => no_flags t
  end.

(** Numbers, and lists and arrays of numbers, lists, ... *)
Fixpoint numeric (t : sty) : Prop :=
  match t with
  | SVal _ _ => True
  | SList _ _ t => numeric t
  | SArray _ _ k (SVal _ sz) => k = Z.of_nat sz
  | _ => False
  end.

(** Arrays hold numbers (the runtime's other fixed-size items, structures, are not types here). *)
Fixpoint array_items_numbers (t : sty) : Prop :=
  match t with
  | SVal _ _ | SNts | SVarchar _ _ => True
  | SOpt t | SList _ _ t => array_items_numbers t
  | SArray _ _ k (SVal _ sz) => k = Z.of_nat sz
  | SArray _ _ _ _ => False
  end.
