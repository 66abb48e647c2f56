(** Model of the Swift runtime, Swift/BP3DProto/**.

    - A Swift trap (failed [assert], arithmetic overflow, invalid range, index out
      of range) is [Panic], a thrown [Error] is [Err].
    - [assert] is checked in debug builds only ([mode]); overflow, range and
      index checks are checked in every build. Int is 64 bits wide, the host is
      little endian.
    - Foundation is not part of the repository. Its [NSData], [NSMutableData] and
      [Data] are assumed to be byte strings; subscripts with an index or a range
      outside of the byte string trap; [copyBytes] copies at most as many bytes
      as the destination holds; slices share the indices of their base.
    - [NSMutableData] is shared by reference between a buffer and its slices.
      A function that writes through a buffer returns the buffer after the call;
      [db_data] is the storage all the slices share when [db_mut] is set. Several
      variables writing to the same storage in turn are not modelled.
    - The default methods of the protocol [Buffer] (buffer.swift:44-63) that
      [DataBuffer] overrides are not modelled. *)

From Coq Require Import Arith NArith ZArith List Bool.
From Verif Require Import Base Codec.
Import ListNotations.
Local Open Scope Z_scope.

(** message/message.swift:31-35 *)
Inductive serror := SInvalidUTF8 | STruncated | SInvalidUnionDiscriminant.

Definition sres (A : Type) := outcome serror A.

(** [assert(c)] *)
Definition sassert (m : mode) (c : bool) : sres unit :=
  match m with
  | Debug => if c then Ok tt else Panic
  | Release => Ok tt
  end.

(** [a + b] and [a * b] on Int, [Int(n)] of an unsigned [n]. *)
Definition int_min : Z := - 2 ^ 63.
Definition int_max : Z := 2 ^ 63 - 1.
Definition int_check (x : Z) : sres Z :=
  if (int_min <=? x) && (x <=? int_max) then Ok x else Panic.
Definition iadd (a b : Z) : sres Z := int_check (a + b).
Definition imul (a b : Z) : sres Z := int_check (a * b).
Definition int_of_uint (n : N) : sres Z := int_check (Z.of_N n).

(** [a - b] on UInt. *)
Definition uint_sub (a b : N) : sres N := if (b <=? a)%N then Ok (a - b)%N else Panic.

Definition count (d : bytes) : Z := Z.of_nat (length d).

(** ** util/buffer.swift *)

(** [DataBuffer] (buffer.swift:72-77). [db_data] is what [get()] returns
    (79-84), [db_mut] tells whether [dataMut] is set. *)
Record dbuf := {
  db_data : bytes;
  db_mut : bool;
  db_start : Z;
  db_end : Z;
  db_cursor : Z
}.

(** buffer.swift:101-107 *)
Definition db_empty : dbuf :=
  {| db_data := []; db_mut := true; db_start := 0; db_end := 0; db_cursor := 0 |}.
(** buffer.swift:109-115; also 117-131, which differ in who else holds the
    storage. *)
Definition db_of_bytes (d : bytes) : dbuf :=
  {| db_data := d; db_mut := true; db_start := 0; db_end := count d; db_cursor := 0 |}.
(** buffer.swift:133-147 *)
Definition db_of_const (d : bytes) : dbuf :=
  {| db_data := d; db_mut := false; db_start := 0; db_end := count d; db_cursor := 0 |}.
(** buffer.swift:93-99 *)
Definition db_sub (b : dbuf) (start end_ : Z) : dbuf :=
  {| db_data := db_data b; db_mut := db_mut b;
     db_start := start; db_end := end_; db_cursor := start |}.

(** buffer.swift:149-151, 44-46 *)
Definition db_size (b : dbuf) : Z := db_end b - db_start b.
Definition db_is_empty (b : dbuf) : bool := db_size b =? 0.

(** buffer.swift:153-156 *)
Definition db_clear (b : dbuf) : dbuf :=
  {| db_data := db_data b; db_mut := db_mut b;
     db_start := db_start b; db_end := db_start b; db_cursor := db_start b |}.

(** [data[i]] and [data[lo...hi]] of NSData. *)
Definition data_at (d : bytes) (i : Z) : sres N :=
  if (0 <=? i) && (i <? count d) then Ok (nth (Z.to_nat i) d 0%N) else Panic.
Definition data_range (d : bytes) (lo hi : Z) : sres bytes :=
  if (lo <=? hi) && (0 <=? lo) && (hi <? count d)
  then Ok (firstn (Z.to_nat (hi - lo + 1)) (skipn (Z.to_nat lo) d)) else Panic.

(** buffer.swift:190-193 *)
Definition db_at (m : mode) (b : dbuf) (i : Z) : sres N :=
  _ <- sassert m (i <? db_size b) ;; data_at (db_data b) (db_start b + i).

(** buffer.swift:167-176: [b[lo...hi]]; a [ClosedRange] traps when [hi < lo]. *)
Definition db_closed (m : mode) (b : dbuf) (lo hi : Z) : sres dbuf :=
  if hi <? lo then Panic
  else
    _ <- sassert m (0 <=? hi - lo) ;;
    _ <- sassert m (lo <=? db_size b) ;;
    _ <- sassert m (hi <=? db_size b) ;;
    _ <- sassert m (0 <=? lo) ;;
    _ <- sassert m (0 <=? hi) ;;
    Ok (db_sub b (db_start b + lo) (db_start b + hi)).
(** buffer.swift:178-182: [b[lo...]] *)
Definition db_from (m : mode) (b : dbuf) (lo : Z) : sres dbuf :=
  _ <- sassert m (lo <=? db_size b) ;;
  _ <- sassert m (0 <? lo) ;;
  Ok (db_sub b (db_start b + lo) (db_end b)).
(** buffer.swift:184-188: [b[...hi]] *)
Definition db_through (m : mode) (b : dbuf) (hi : Z) : sres dbuf :=
  _ <- sassert m (hi <=? db_size b) ;;
  _ <- sassert m (0 <? hi) ;;
  Ok (db_sub b (db_start b) (db_start b + hi)).

(** [firstIndex(of:)] of a collection whose first index is [i]. *)
Fixpoint first_index (v : N) (i : Z) (d : bytes) : option Z :=
  match d with
  | [] => None
  | x :: r => if (x =? v)%N then Some i else first_index v (i + 1) r
  end.
(** buffer.swift:163-165: searches the storage from [start] on, beyond [end],
    and returns an index of the storage. *)
Definition db_find_first (b : dbuf) (v : N) : sres (option Z) :=
  if (0 <=? db_start b) && (db_start b <=? count (db_data b))
  then Ok (first_index v (db_start b) (skipn (Z.to_nat (db_start b)) (db_data b)))
  else Panic.

(** buffer.swift:158-161 into the 8 bytes of a UInt64 that is 0 (its only use):
    the 8 bytes afterwards. The closed range takes one byte more than [size]. *)
Definition db_copy_to (m : mode) (b : dbuf) (size : Z) : sres bytes :=
  _ <- sassert m (size <=? db_size b) ;;
  d <- data_range (db_data b) (db_start b) (db_start b + size) ;;
  let d := firstn 8 d in
  Ok (d ++ repeat 0%N (8 - length d)).

(** buffer.swift:243-245 *)
Definition db_to_data (b : dbuf) : sres bytes :=
  data_range (db_data b) (db_start b) (db_end b - 1).

(** [NSMutableData.replaceBytes(in: NSRange(location:, length:), withBytes:)] with
    as many bytes as the range has. *)
Definition replace_bytes (d : bytes) (at_ : Z) (x : bytes) : sres bytes :=
  if (0 <=? at_) && (at_ + count x <=? count d)
  then Ok (splice d (Z.to_N at_) x) else Panic.

(** buffer.swift:195-220 and 222-224. *)
Definition db_write (b : dbuf) (x : bytes) : sres dbuf :=
  let d := db_data b in
  d' <- (if db_cursor b + count x <? count d then replace_bytes d (db_cursor b) x
         else
           let max_len := count d - db_cursor b in
           d1 <- (if 0 <? max_len then replace_bytes d (db_cursor b) (firstn (Z.to_nat max_len) x)
                  else Ok d) ;;
           let remaining := count x - max_len in
           if 0 <? remaining then
             if max_len <? 0 then Panic
             else Ok (d1 ++ skipn (Z.to_nat max_len) x)
           else Ok d1) ;;
  Ok {| db_data := d'; db_mut := true; db_start := db_start b;
        db_end := db_cursor b + count x; db_cursor := db_cursor b + count x |}.

(** buffer.swift:226-241: appends unless two bytes are left after the cursor. *)
Definition db_write_byte (b : dbuf) (x : N) : sres dbuf :=
  let d := db_data b in
  d' <- (if db_cursor b + 1 <? count d then replace_bytes d (db_cursor b) [x]
         else Ok (d ++ [x])) ;;
  Ok {| db_data := d'; db_mut := true; db_start := db_start b;
        db_end := db_cursor b + 1; db_cursor := db_cursor b + 1 |}.

(** ** util/bytesutil.swift: [Scalar]; a type is its size in bytes *)

Local Open Scope N_scope.

(** [x << k | y] on an unsigned type that holds the result. *)
Definition shl_or (x k y : N) : N := N.lor (N.shiftl x k) y.
(** [value.byteSwapped] *)
Definition byte_swapped (sz : nat) (v : N) : N := le_dec (rev (le_enc sz v)).

(** UInt8, UInt16, UInt32: bytesutil.swift:187-193, 147-155, 103-111. *)
Definition u8_from (m : mode) (b : dbuf) : sres N := db_at m b 0.
Definition u16_from_be (m : mode) (b : dbuf) : sres N :=
  x0 <- db_at m b 0 ;; x1 <- db_at m b 1 ;; Ok (shl_or x0 8 x1).
Definition u16_from_le (m : mode) (b : dbuf) : sres N :=
  x1 <- db_at m b 1 ;; x0 <- db_at m b 0 ;; Ok (shl_or x1 8 x0).
Definition u32_from_be (m : mode) (b : dbuf) : sres N :=
  x0 <- db_at m b 0 ;; x1 <- db_at m b 1 ;; x2 <- db_at m b 2 ;; x3 <- db_at m b 3 ;;
  Ok (N.lor (N.lor (N.lor (N.shiftl x0 24) (N.shiftl x1 16)) (N.shiftl x2 8)) x3).
Definition u32_from_le (m : mode) (b : dbuf) : sres N :=
  x3 <- db_at m b 3 ;; x2 <- db_at m b 2 ;; x1 <- db_at m b 1 ;; x0 <- db_at m b 0 ;;
  Ok (N.lor (N.lor (N.lor (N.shiftl x3 24) (N.shiftl x2 16)) (N.shiftl x1 8)) x0).
(** UInt64: bytesutil.swift:51-59 *)
Definition u64_from_be (m : mode) (b : dbuf) : sres N :=
  hi <- u32_from_be m b ;;
  r <- db_from m b 4 ;;
  lo <- u32_from_be m r ;;
  Ok (shl_or hi 32 lo).
Definition u64_from_le (m : mode) (b : dbuf) : sres N :=
  v <- u64_from_be m b ;; Ok (byte_swapped 8 v).

(** [T(fromBytesLE:)] and [T(fromBytesBE:)]; the four types of the file. *)
Definition scalar_from (m : mode) (o : order) (sz : nat) (b : dbuf) : sres N :=
  match sz, o with
  | 1%nat, _ => u8_from m b
  | 2%nat, LE => u16_from_le m b
  | 2%nat, BE => u16_from_be m b
  | 4%nat, LE => u32_from_le m b
  | 4%nat, BE => u32_from_be m b
  | 8%nat, LE => u64_from_le m b
  | 8%nat, BE => u64_from_be m b
  | _, _ => Panic
  end.

(** [T(fromUInt:)]: bytesutil.swift:43-45, 95-97, 139-141, 179-181. UInt16 alone
    truncates, the others trap on a value that does not fit. *)
Definition from_uint (sz : nat) (v : N) : sres N :=
  match sz with
  | 2%nat => Ok (v mod tmod 2)
  | _ => if v <? tmod sz then Ok v else Panic
  end.

(** [toBytesLE()] and [toBytesBE()]: bytesutil.swift:65-91, 117-135, 161-175,
    199-205. [UInt8(truncatingIfNeeded: value >> 8*i)] for the i-th byte. *)
Definition to_bytes_le (sz : nat) (v : N) : bytes :=
  map (fun i => N.shiftr v (8 * N.of_nat i) mod 256) (seq 0 sz).
Definition to_bytes (o : order) (sz : nat) (v : N) : bytes :=
  match o with
  | LE => to_bytes_le sz v
  | BE => to_bytes_le sz (byte_swapped sz v)
  end.

(** ** message/*.swift *)

(** A type made of the codecs of this directory; [String] is represented by its
    UTF-8 bytes. [SArray o sz k t] is [Array] with a length of [sz] bytes and
    items read by [t] whose output has the static size [k]. *)
Inductive sty :=
| SVal (o : order) (sz : nat)
| SNts
| SVarchar (o : order) (sz : nat)
| SOpt (t : sty)
| SList (o : order) (sz : nat) (t : sty)
| SArray (o : order) (sz : nat) (k : Z) (t : sty).

Inductive sval :=
| SN (n : N)
| SS (s : bytes)
| SO (v : option sval)
| SL (l : list sval).

Section Messages.
(** [String(decoding:, as: UTF8.self)] of the standard library, which replaces
    what is not UTF-8; [m]: build profile. *)
Variables (decoding : bytes -> bytes) (m : mode).

(** common.swift:64-69, 80-85 *)
Definition s_value_from (o : order) (sz : nat) (b : dbuf) : sres (Z * N) :=
  if (db_size b <? Z.of_nat sz)%Z then Err STruncated
  else v <- scalar_from m o sz b ;; Ok (Z.of_nat sz, v).

(** string.swift:35-39 *)
Definition s_nts_from (b : dbuf) : sres (Z * bytes) :=
  i <- db_find_first b 0 ;;
  match i with
  | None => Err STruncated
  | Some index =>
      w <- db_through m b index ;;
      d <- db_to_data w ;;
      size <- iadd index 1 ;;
      Ok (size, decoding d)
  end.

(** string.swift:51-57 *)
Definition s_varchar_from (o : order) (sz : nat) (b : dbuf) : sres (Z * bytes) :=
  '(size, length) <- s_value_from o sz b ;;
  n <- int_of_uint length ;;
  hi <- iadd size n ;;
  w <- db_closed m b size hi ;;
  d <- db_to_data w ;;
  total <- iadd n size ;;
  Ok (total, decoding d).

(** common.swift:34-45: the size of the presence byte is not counted. *)
Definition s_optional_from {A} (r : dbuf -> sres (Z * A)) (b : dbuf) : sres (Z * option A) :=
  if db_is_empty b then Err STruncated
  else
    flag <- db_at m b 0 ;;
    if 0 <? flag then
      d <- db_from m b 1 ;;
      '(size, v) <- r d ;;
      Ok (size, Some v)
    else Ok (1%Z, None).

(** The loops of list.swift:40-45 and 73-77, [n] iterations: the items and the
    sum of their sizes. *)
Fixpoint s_items {A} (r : dbuf -> sres (Z * A)) (n : nat) (data : dbuf) : sres (Z * list A) :=
  match n with
  | O => Ok (0%Z, [])
  | S k =>
      '(size, v) <- r data ;;
      data <- db_from m data size ;;
      '(total, vs) <- s_items r k data ;;
      total <- iadd size total ;;
      Ok (total, v :: vs)
  end.

(** list.swift:34-47; [reserveCapacity] is assumed to succeed. *)
Definition s_list_from {A} (o : order) (sz : nat) (r : dbuf -> sres (Z * A)) (b : dbuf)
  : sres (Z * list A) :=
  '(size, n) <- s_value_from o sz b ;;
  data <- db_from m b size ;;
  _ <- int_of_uint n ;;
  last <- uint_sub n 1 ;;
  '(total, vs) <- s_items r (S (N.to_nat last)) data ;;
  total <- iadd size total ;;
  Ok (total, vs).

(** list.swift:64-79 *)
Definition s_array_from {A} (o : order) (sz : nat) (k : Z) (r : dbuf -> sres (Z * A)) (b : dbuf)
  : sres (Z * list A) :=
  '(size, n) <- s_value_from o sz b ;;
  data <- db_from m b size ;;
  n' <- int_of_uint n ;;
  body <- imul n' k ;;
  total <- iadd size body ;;
  if (db_size b <? total)%Z then Err STruncated
  else
    last <- uint_sub n 1 ;;
    '(_, vs) <- s_items r (S (N.to_nat last)) data ;;
    Ok (total, vs).

(** [T.from(slice:)] *)
Fixpoint s_from (t : sty) (b : dbuf) : sres (Z * sval) :=
  match t with
  | SVal o sz => '(n, v) <- s_value_from o sz b ;; Ok (n, SN v)
  | SNts => '(n, s) <- s_nts_from b ;; Ok (n, SS s)
  | SVarchar o sz => '(n, s) <- s_varchar_from o sz b ;; Ok (n, SS s)
  | SOpt t => '(n, v) <- s_optional_from (s_from t) b ;; Ok (n, SO v)
  | SList o sz t => '(n, l) <- s_list_from o sz (s_from t) b ;; Ok (n, SL l)
  | SArray o sz k t => '(n, l) <- s_array_from o sz k (s_from t) b ;; Ok (n, SL l)
  end.

End Messages.

(** common.swift:71-73, 87-89 *)
Definition s_value_write (o : order) (sz : nat) (v : N) (b : dbuf) : sres dbuf :=
  db_write b (to_bytes o sz v).
(** string.swift:41-45 *)
Definition s_nts_write (s : bytes) (b : dbuf) : sres dbuf :=
  b <- db_write b s ;; db_write_byte b 0.
(** string.swift:63-68 *)
Definition s_varchar_write (o : order) (sz : nat) (s : bytes) (b : dbuf) : sres dbuf :=
  n <- from_uint sz (len s) ;;
  b <- s_value_write o sz n b ;;
  db_write b s.
(** common.swift:51-57 *)
Definition s_optional_write {A} (w : A -> dbuf -> sres dbuf) (v : option A) (b : dbuf) : sres dbuf :=
  match v with
  | Some x => b <- db_write_byte b 1 ;; w x b
  | None => db_write_byte b 0
  end.
Fixpoint s_items_write {A} (w : A -> dbuf -> sres dbuf) (l : list A) (b : dbuf) : sres dbuf :=
  match l with
  | [] => Ok b
  | x :: r => b <- w x b ;; s_items_write w r b
  end.
(** list.swift:53-58, 85-90 *)
Definition s_list_write {A} (o : order) (sz : nat) (w : A -> dbuf -> sres dbuf) (l : list A)
  (b : dbuf) : sres dbuf :=
  n <- from_uint sz (len l) ;;
  b <- s_value_write o sz n b ;;
  s_items_write w l b.

(** [T.write(input:, to:)]; the type checker excludes inputs of another shape,
    which are given [Panic]. *)
Fixpoint s_write (t : sty) (v : sval) (b : dbuf) : sres dbuf :=
  match t, v with
  | SVal o sz, SN n => s_value_write o sz n b
  | SNts, SS s => s_nts_write s b
  | SVarchar o sz, SS s => s_varchar_write o sz s b
  | SOpt t, SO v => s_optional_write (s_write t) v b
  | SList o sz t, SL l => s_list_write o sz (s_write t) l b
  | SArray o sz _ t, SL l => s_list_write o sz (s_write t) l b
  | _, _ => Panic
  end.

(** ** codec/byte.swift and codec/bit.swift *)

(** [x << k] on UInt: the smart shift gives 0 for 64 or more. *)
Definition uint_shl (x k : N) : N := N.shiftl x k mod tmod 8.
(** [(UInt(1) << bitSize) - 1] (bit.swift:83, 89, 100, 106) *)
Definition s_mask (bit_size : N) : sres N := uint_sub (uint_shl 1 bit_size) 1.
(** [8 - (bitSize % 8) - bitOffset] on UInt (bit.swift:102, 110) *)
Definition s_be_shift (bit_offset bit_size : N) : sres N :=
  x <- uint_sub 8 (bit_size mod 8) ;; uint_sub x bit_offset.
(** The amount a value is shifted by. *)
Definition s_shift (o : order) (bit_offset bit_size : N) : sres N :=
  match o with LE => Ok bit_offset | BE => s_be_shift bit_offset bit_size end.

Section Codecs.
Variable m : mode.

(** byte.swift:82-84, 92-94 *)
Definition s_byte_read_aligned (o : order) (sz : nat) (b : dbuf) : sres N := scalar_from m o sz b.
(** byte.swift:46-52; [DataBuffer(bytes: ptr)] is a copy of the 8 bytes. *)
Definition s_byte_read_unaligned (o : order) (sz : nat) (b : dbuf) : sres N :=
  d <- db_copy_to m b (db_size b) ;; s_byte_read_aligned o sz (db_of_bytes d).
(** byte.swift:54-60 *)
Definition s_byte_read (o : order) (sz : nat) (b : dbuf) : sres N :=
  if (Z.of_nat sz =? db_size b)%Z then s_byte_read_aligned o sz b
  else s_byte_read_unaligned o sz b.

(** byte.swift:86-88, 96-98 *)
Definition s_byte_write_aligned (o : order) (sz : nat) (v : N) (b : dbuf) : sres dbuf :=
  db_write b (to_bytes o sz v).
(** byte.swift:62-70: the value is written to a copy of the 8 bytes that is then
    dropped, and the 8 bytes are written back. *)
Definition s_byte_write_unaligned (o : order) (sz : nat) (v : N) (b : dbuf) : sres dbuf :=
  d <- db_copy_to m b (db_size b) ;;
  _ <- s_byte_write_aligned o sz v (db_of_bytes d) ;;
  db_write b d.
(** byte.swift:72-78 *)
Definition s_byte_write (o : order) (sz : nat) (v : N) (b : dbuf) : sres dbuf :=
  if (Z.of_nat sz =? db_size b)%Z then s_byte_write_aligned o sz v b
  else s_byte_write_unaligned o sz v b.

(** bit.swift:82-86 (LE), 99-103 (BE); [>>] is the smart shift. *)
Definition s_bit_read_aligned (o : order) (sz : nat) (bit_offset bit_size : N) (b : dbuf) : sres N :=
  mask <- s_mask bit_size ;;
  value <- scalar_from m o sz b ;;
  sh <- s_shift o bit_offset bit_size ;;
  sh <- from_uint sz sh ;;
  mask <- from_uint sz mask ;;
  Ok (N.land (N.shiftr value sh) mask).
(** bit.swift:46-52 *)
Definition s_bit_read_unaligned (o : order) (sz : nat) (bit_offset bit_size : N) (b : dbuf) : sres N :=
  d <- db_copy_to m b (db_size b) ;;
  s_bit_read_aligned o sz bit_offset bit_size (db_of_bytes d).
(** bit.swift:54-60 *)
Definition s_bit_read (o : order) (sz : nat) (bit_offset bit_size : N) (b : dbuf) : sres N :=
  if (Z.of_nat sz =? db_size b)%Z then s_bit_read_aligned o sz bit_offset bit_size b
  else s_bit_read_unaligned o sz bit_offset bit_size b.

(** bit.swift:88-95 (LE), 105-112 (BE) *)
Definition s_bit_write_aligned (o : order) (sz : nat) (bit_offset bit_size v : N) (b : dbuf)
  : sres dbuf :=
  mask <- s_mask bit_size ;;
  let reset_mask := tmod 8 - 1 - uint_shl mask bit_offset in
  original <- scalar_from m o sz b ;;
  rm <- from_uint sz reset_mask ;;
  let clean := N.land original rm in
  mk <- from_uint sz mask ;;
  sh <- s_shift o bit_offset bit_size ;;
  sh <- from_uint sz sh ;;
  let value1 := N.shiftl (N.land v mk) sh mod tmod sz in
  db_write b (to_bytes o sz (N.lor clean value1)).
(** bit.swift:62-70: as for bytes, the new value is dropped. *)
Definition s_bit_write_unaligned (o : order) (sz : nat) (bit_offset bit_size v : N) (b : dbuf)
  : sres dbuf :=
  d <- db_copy_to m b (db_size b) ;;
  _ <- s_bit_write_aligned o sz bit_offset bit_size v (db_of_bytes d) ;;
  db_write b d.
(** bit.swift:72-78 *)
Definition s_bit_write (o : order) (sz : nat) (bit_offset bit_size v : N) (b : dbuf) : sres dbuf :=
  if (Z.of_nat sz =? db_size b)%Z then s_bit_write_aligned o sz bit_offset bit_size v b
  else s_bit_write_unaligned o sz bit_offset bit_size v b.

(** ** codec/array.swift *)

(** array.swift:39-42, 35-37; a division by zero traps. *)
Definition s_array_count (ibs : Z) (b : dbuf) : sres Z :=
  if (ibs / 8 =? 0)%Z then Panic else Ok (db_size b / (ibs / 8))%Z.
(** array.swift:45-49 *)
Definition s_array_get (o : order) (sz : nat) (ibs : Z) (b : dbuf) (index : Z) : sres N :=
  pos <- imul index (ibs / 8)%Z ;;
  end_ <- iadd pos (ibs / 8)%Z ;;
  w <- db_closed m b pos end_ ;;
  s_byte_read o sz w.
(** array.swift:50-55: the storage is shared with the slice unless the buffer
    is a constant one, whose slice writes to a copy of its own. *)
Definition s_array_set (o : order) (sz : nat) (ibs : Z) (b : dbuf) (index : Z) (v : N) : sres dbuf :=
  pos <- imul index (ibs / 8)%Z ;;
  end_ <- iadd pos (ibs / 8)%Z ;;
  w <- db_closed m b pos end_ ;;
  w' <- s_byte_write o sz v w ;;
  if db_mut b
  then Ok {| db_data := db_data w'; db_mut := true; db_start := db_start b;
             db_end := db_end b; db_cursor := db_cursor b |}
  else Ok b.

End Codecs.
