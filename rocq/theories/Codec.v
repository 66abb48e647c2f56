(** Model of runtime/src/util/scalar.rs and runtime/src/codec/*.rs.

    A Rust unsigned integer type [T] is represented by its size in bytes
    [sz] (1, 2, 4 or 8), its values by numbers below [tmod sz].
    The crate [bytesutil] is not part of the repository; its
    [read_bytes_le/be] and [write_bytes_le/be] are assumed to act on the first
    [size_of::<T>()] bytes of the buffer and to panic when there are fewer. *)

From Coq Require Import Arith NArith List Bool.
From Verif Require Import Base.
Import ListNotations.
Local Open Scope N_scope.

Section Codec.
Context {E : Type}.

(** runtime/src/util/scalar.rs:29-49 — [ToUsize::from_usize] is an [as]
    cast, which truncates. *)
Definition from_usize (sz : nat) (v : N) : N := v mod tmod sz.

(** The byte order of a codec. *)
Inductive order := LE | BE.

(** bytesutil [read_bytes_le] / [read_bytes_be] (assumed). *)
Definition read_bytes (o : order) (sz : nat) (b : bytes) : outcome E N :=
  if (length b <? sz)%nat then Panic
  else let d := firstn sz b in
       Ok (match o with LE => le_dec d | BE => le_dec (rev d) end).

(** bytesutil [write_bytes_le] / [write_bytes_be] (assumed). *)
Definition write_bytes (o : order) (sz : nat) (b : bytes) (v : N) : outcome E bytes :=
  if (length b <? sz)%nat then Panic
  else let d := le_enc sz v in
       Ok ((match o with LE => d | BE => rev d end) ++ skipn sz b).

(** [let mut data = [0; 8]; data[..buffer.len()].copy_from_slice(buffer)]
    (bytes.rs:35-36 and 51-52, bits.rs:37-38 and 53-54): panics for more than 8 bytes. *)
Definition pad8 (b : bytes) : outcome E bytes :=
  if (8 <? length b)%nat then Panic else Ok (b ++ repeat 0 (8 - length b)).

(** ** runtime/src/codec/bytes.rs *)

(** bytes.rs:71-77 (LE), 81-87 (BE). *)
Definition byte_read_aligned := read_bytes.
Definition byte_write_aligned := write_bytes.

(** bytes.rs:34-38 *)
Definition byte_read_unaligned (o : order) (sz : nat) (b : bytes) : outcome E N :=
  d <- pad8 b ;; byte_read_aligned o sz d.

(** bytes.rs:40-46 *)
Definition byte_read (o : order) (sz : nat) (b : bytes) : outcome E N :=
  if (sz =? length b)%nat then byte_read_aligned o sz b else byte_read_unaligned o sz b.

(** bytes.rs:50-56 *)
Definition byte_write_unaligned (o : order) (sz : nat) (b : bytes) (v : N) : outcome E bytes :=
  d <- pad8 b ;; d' <- byte_write_aligned o sz d v ;; Ok (firstn (length b) d').

(** bytes.rs:58-64 *)
Definition byte_write (o : order) (sz : nat) (b : bytes) (v : N) : outcome E bytes :=
  if (sz =? length b)%nat then byte_write_aligned o sz b v else byte_write_unaligned o sz b v.

(** ** runtime/src/codec/bits.rs *)

(** [value >> s] and [value << s] on [T]: a shift amount not below the
    width panics in debug and is reduced in release; bits shifted out on
    the left are lost without a panic. *)
Definition tshr (m : mode) (sz : nat) (v s : N) : outcome E N :=
  if s <? 8 * N.of_nat sz then Ok (N.shiftr v s)
  else overflow m (N.shiftr v (s mod (8 * N.of_nat sz))).
Definition tshl (m : mode) (sz : nat) (v s : N) : outcome E N :=
  if s <? 8 * N.of_nat sz then Ok (N.shiftl v s mod tmod sz)
  else overflow m (N.shiftl v (s mod (8 * N.of_nat sz)) mod tmod sz).

(** [(1usize << BIT_SIZE) - 1] (bits.rs:74, 80, 91, 97). *)
Definition bit_mask (m : mode) (bit_size : N) : outcome E N :=
  x <- ushl1 m bit_size ;; usub m x 1.
(** [!(mask << BIT_OFFSET)] on usize (bits.rs:81, 98). *)
Definition reset_mask (m : mode) (mask bit_offset : N) : outcome E N :=
  s <- tshl m 8 mask bit_offset ;; Ok (usize_mod - 1 - s).
(** [8 - (BIT_SIZE % 8) - BIT_OFFSET] on usize (bits.rs:93, 101). *)
Definition be_shift (m : mode) (bit_offset bit_size : N) : outcome E N :=
  x <- usub m 8 (bit_size mod 8) ;; usub m x bit_offset.

(** bits.rs:73-77 (LE) and 90-94 (BE). *)
Definition bit_read_aligned (m : mode) (o : order) (sz : nat) (bit_offset bit_size : N)
  (b : bytes) : outcome E N :=
  mask <- bit_mask m bit_size ;;
  value <- read_bytes o sz b ;;
  sh <- match o with LE => Ok bit_offset | BE => be_shift m bit_offset bit_size end ;;
  v <- tshr m sz value (from_usize sz sh) ;;
  Ok (N.land v (from_usize sz mask)).

(** bits.rs:79-86 (LE) and 96-103 (BE). Both orders compute [reset_mask]
    from BIT_OFFSET; only the shift of the value differs. *)
Definition bit_write_aligned (m : mode) (o : order) (sz : nat) (bit_offset bit_size : N)
  (b : bytes) (value : N) : outcome E bytes :=
  mask <- bit_mask m bit_size ;;
  rmask <- reset_mask m mask bit_offset ;;
  original <- read_bytes o sz b ;;
  sh <- match o with LE => Ok bit_offset | BE => be_shift m bit_offset bit_size end ;;
  v <- tshl m sz (N.land value (from_usize sz mask)) (from_usize sz sh) ;;
  let clean := N.land original (from_usize sz rmask) in
  write_bytes o sz b (N.lor clean v).

(** bits.rs:36-40 *)
Definition bit_read_unaligned (m : mode) (o : order) (sz : nat) (bit_offset bit_size : N)
  (b : bytes) : outcome E N :=
  d <- pad8 b ;; bit_read_aligned m o sz bit_offset bit_size d.

(** bits.rs:42-48 *)
Definition bit_read (m : mode) (o : order) (sz : nat) (bit_offset bit_size : N)
  (b : bytes) : outcome E N :=
  if (sz =? length b)%nat then bit_read_aligned m o sz bit_offset bit_size b
  else bit_read_unaligned m o sz bit_offset bit_size b.

(** bits.rs:52-58 *)
Definition bit_write_unaligned (m : mode) (o : order) (sz : nat) (bit_offset bit_size : N)
  (b : bytes) (value : N) : outcome E bytes :=
  d <- pad8 b ;;
  d' <- bit_write_aligned m o sz bit_offset bit_size d value ;;
  Ok (firstn (length b) d').

(** bits.rs:60-66 *)
Definition bit_write (m : mode) (o : order) (sz : nat) (bit_offset bit_size : N)
  (b : bytes) (value : N) : outcome E bytes :=
  if (sz =? length b)%nat then bit_write_aligned m o sz bit_offset bit_size b value
  else bit_write_unaligned m o sz bit_offset bit_size b value.

(** ** runtime/src/codec/arrays.rs
    The codec only holds the buffer window; ITEM_BIT_SIZE is [ibs]. *)

(** arrays.rs:50-55 *)
Definition array_get_raw (m : mode) (o : order) (sz : nat) (ibs : N) (b : bytes) (index : N)
  : outcome E N :=
  let byte_size := ibs / 8 in
  pos <- umul m index byte_size ;;
  end_ <- uadd m pos byte_size ;;
  w <- slice b pos end_ ;;
  byte_read o sz w.

(** arrays.rs:57-60 *)
Definition array_len (ibs : N) (b : bytes) : outcome E N :=
  let byte_size := ibs / 8 in
  udiv (len b) byte_size.

(** [slice::chunks(n)] for [n > 0]: consecutive pieces of length n, the
    last one possibly shorter. The fuel is the length of the slice. *)
Fixpoint chunks_aux {A} (fuel : nat) (n : nat) (b : list A) : list (list A) :=
  match fuel, b with
  | _, [] => []
  | O, _ => []
  | S f, _ => firstn n b :: chunks_aux f n (skipn n b)
  end.
(** [chunks(0)] panics. *)
Definition chunks {A} (n : N) (b : list A) : outcome E (list (list A)) :=
  if n =? 0 then Panic
  else if len b <=? n then Ok (match b with [] => [] | _ => [b] end)
  else Ok (chunks_aux (length b) (N.to_nat n) b).

(** Run [f] on each element in turn. *)
Fixpoint mapM {A B} (f : A -> outcome E B) (l : list A) : outcome E (list B) :=
  match l with
  | [] => Ok []
  | x :: r => y <- f x ;; ys <- mapM f r ;; Ok (y :: ys)
  end.

(** arrays.rs:62-65, with the iterator driven to its end. *)
Definition array_iter_raw (o : order) (sz : nat) (ibs : N) (b : bytes) : outcome E (list N) :=
  let byte_size := ibs / 8 in
  cs <- chunks byte_size b ;; mapM (byte_read o sz) cs.

(** arrays.rs:69-75 *)
Definition array_set_raw (m : mode) (o : order) (sz : nat) (ibs : N) (b : bytes) (index value : N)
  : outcome E bytes :=
  let byte_size := ibs / 8 in
  pos <- umul m index byte_size ;;
  end_ <- uadd m pos byte_size ;;
  update_slice b pos end_ (fun w => byte_write o sz w value).

End Codec.
