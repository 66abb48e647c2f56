(** Model of runtime/src/message/**.

    A reader [T::from_slice] is a function from a byte string to the pair
    (size, data) held by [Message<T>] (interface.rs:54-65). References into the
    input are represented by the bytes they point to.

    A writer [T::write_to] is polymorphic in the [std::io::Write] it writes to:
    [sink St] is an implementation of that trait with state [St], of which only
    [write_all] is used by the runtime.

    A Rust slice never has more than isize::MAX bytes; this is not built into
    [bytes], theorems that need it say so. *)

From Coq Require Import Arith NArith List Bool.
From Verif Require Import Base Codec Utf8.
Import ListNotations.
Local Open Scope N_scope.

(** interface.rs:31-38. The wrapped [io::Error] is not modelled. *)
Inductive rerror :=
| InvalidUtf8
| Truncated
| InvalidUnionDiscriminant (n : N)
| Io.

Definition rres (A : Type) := outcome rerror A.

(** [Message<T>]: size and data. *)
Definition reader (A : Type) := bytes -> rres (N * A).

(** ** Sinks *)

(** [Write::write_all]. The new state is given also on failure. *)
Record sink (St : Type) := { write_all : St -> bytes -> St * rres unit }.
Arguments write_all {St}.

Definition wr (St : Type) := St -> St * rres unit.

(** [a?; b] for writers. *)
Definition wseq {St} (a b : wr St) : wr St := fun s =>
  let '(s, r) := a s in
  match r with Ok _ => b s | Err e => (s, Err e) | Panic => (s, Panic) end.
Definition wdone {St} : wr St := fun s => (s, Ok tt).
Definition wfail {St} (e : rerror) : wr St := fun s => (s, Err e).
Definition wpanic {St} : wr St := fun s => (s, Panic).
(** Evaluate an expression that may panic or fail before writing. *)
Definition wlet {St A} (x : rres A) (k : A -> wr St) : wr St := fun s =>
  match x with Ok a => k a s | Err e => (s, Err e) | Panic => (s, Panic) end.

(** [impl Write for Vec<u8>] (standard library): appends, never fails. *)
Definition vec_sink : sink bytes := {| write_all := fun s b => (s ++ b, Ok tt) |}.

(** A writer that accepts [cap] bytes in total, as [&mut [u8]] does: [write_all]
    stores what fits, then fails. *)
Definition limited_sink (cap : N) : sink bytes :=
  {| write_all := fun s b =>
       if len (s ++ b) <=? cap then (s ++ b, Ok tt)
       else (s ++ firstn (N.to_nat cap - length s) b, Err Io) |}.

(** size.rs:33-44: [Counter]; [write_all] of the standard library calls [write]
    unless the buffer is empty. The addition may overflow. *)
Definition counter_sink (m : mode) : sink N :=
  {| write_all := fun s b =>
       match b with
       | [] => (s, Ok tt)
       | _ => match uadd m s (len b) with
              | Ok s' => (s', Ok tt)
              | Err e => (s, Err e)
              | Panic => (s, Panic)
              end
       end |}.

(** ** Readers *)

Section Readers.
Variable m : mode.

(** common.rs:94-106 [ValueLE], 117-129 [ValueBE]; [T::read_bytes_*] is
    [bytesutil]'s (see Codec). Integers and floats are represented by their bit
    pattern, a [bool] by its byte. *)
Definition value_from_slice (o : order) (sz : nat) : reader N := fun b =>
  if len b <? N.of_nat sz then Err Truncated
  else v <- read_bytes o sz b ;; Ok (N.of_nat sz, v).

(** common.rs:142-148 [Buffer] *)
Definition buffer_from_slice : reader bytes := fun b => Ok (len b, b).

(** common.rs:36-52 [Optional] *)
Definition optional_from_slice {A} (r : reader A) : reader (option A) := fun b =>
  if len b <? 1 then Err Truncated
  else
    flag <- unwrap (nth_error b 0) ;;
    if 0 <? flag then
      d <- slice_from b 1 ;;
      '(size, v) <- r d ;;
      size <- uadd m size 1 ;;
      Ok (size, Some v)
    else Ok (1, None).

(** common.rs:57-72: the same with offsets. *)
Definition optional_from_slice_with_offsets {A O} (r : reader (A * O))
  : reader (option A * option O) := fun b =>
  if len b <? 1 then Err Truncated
  else
    flag <- unwrap (nth_error b 0) ;;
    if 0 <? flag then
      d <- slice_from b 1 ;;
      '(size, (v, offsets)) <- r d ;;
      size <- uadd m size 1 ;;
      Ok (size, (Some v, Some offsets))
    else Ok (1, (None, None)).

(** [slice.iter().enumerate().find_map(...)] (string.rs:40-43): the position of
    the first zero byte. *)
Fixpoint find_zero (i : N) (b : bytes) : option N :=
  match b with
  | [] => None
  | x :: r => if x =? 0 then Some i else find_zero (i + 1) r
  end.

(** [std::str::from_utf8(s).map_err(|_| Error::InvalidUtf8)] *)
Definition str_from_utf8 (b : bytes) : rres bytes :=
  if from_utf8 b then Ok b else Err InvalidUtf8.

(** string.rs:36-47 [NullTerminatedString] *)
Definition nts_from_slice : reader bytes := fun b =>
  match find_zero 0 b with
  | None => Err Truncated
  | Some pos =>
      d <- slice b 0 pos ;;
      s <- str_from_utf8 d ;;
      size <- uadd m (len s) 1 ;;
      Ok (size, s)
  end.

(** string.rs:61-71 [VarcharString<T>]; [to_usize] is the identity on values of
    at most 64 bits. *)
Definition varchar_from_slice (t : reader N) : reader bytes := fun b =>
  '(size, n) <- t b ;;
  end_ <- uadd m size n ;;
  d <- slice b size end_ ;;
  s <- str_from_utf8 d ;;
  total <- uadd m size (len s) ;;
  Ok (total, s).

(** array.rs:112-132 [Array]; the data window and [len]. *)
Definition array_from_slice (t : reader N) (item_size : N) : reader (bytes * N) := fun b =>
  '(control_size, n) <- t b ;;
  body <- umul m n item_size ;;
  total_size <- uadd m control_size body ;;
  if len b <? total_size then Err Truncated
  else
    d <- slice b control_size total_size ;;
    Ok (total_size, (d, n)).

(** list.rs:52-56: the loop over [0..len], with its local [total_size]. *)
Fixpoint list_loop {A} (item : reader A) (data : bytes) (n : nat) (total_size : N) : rres N :=
  match n with
  | O => Ok total_size
  | S k =>
      d <- slice_from data total_size ;;
      '(size, _) <- item d ;;
      total_size <- uadd m total_size size ;;
      list_loop item data k total_size
  end.

(** list.rs:47-59 [List] *)
Definition list_from_slice {A} (t : reader N) (item : reader A) : reader (bytes * N) := fun b =>
  '(control_size, n) <- t b ;;
  data <- slice_from b control_size ;;
  total_size <- list_loop item data (N.to_nat n) 0 ;;
  end_ <- uadd m control_size total_size ;;
  d <- slice b control_size end_ ;;
  size <- uadd m total_size control_size ;;
  Ok (size, (d, n)).

(** list.rs:134-140 [Unsized] *)
Definition unsized_from_slice (t : reader N) : reader (bytes * N) := fun b =>
  '(control_size, n) <- t b ;;
  d <- slice_from b control_size ;;
  Ok (len b, (d, n)).

(** structure.template:63-69: [from_slice] of a structure. *)
Definition struct_from_slice (size : N) : reader bytes := fun b =>
  if len b <? size then Err Truncated
  else d <- slice b 0 size ;; Ok (size, d).

End Readers.

(** ** Writers *)

Section Writers.
Context {St : Type} (w : sink St).

Definition put (b : bytes) : wr St := fun s => write_all w s b.

(** common.rs:108-115, 131-138: [bytesutil]'s [write_to_le]/[write_to_be] are
    assumed to be one [write_all] of the value's bytes. *)
Definition value_write (o : order) (sz : nat) (v : N) : wr St :=
  put (match o with LE => le_enc sz v | BE => rev (le_enc sz v) end).

(** common.rs:150-157 *)
Definition buffer_write (b : bytes) : wr St := put b.

(** common.rs:74-87 *)
Definition optional_write {A} (f : A -> wr St) (v : option A) : wr St :=
  match v with
  | None => put [0]
  | Some x => wseq (put [1]) (f x)
  end.

(** string.rs:52-57 *)
Definition nts_write (s : bytes) : wr St := wseq (put s) (put [0]).

(** string.rs:76-80: the length is cast to the type of the prefix. *)
Definition varchar_write (o : order) (sz : nat) (s : bytes) : wr St :=
  wseq (value_write o sz (from_usize sz (len s))) (put s).

(** list_base.rs:53-57, for [List] and [Array]. *)
Definition listing_write (o : order) (sz : nat) (data : bytes) (n : N) : wr St :=
  wseq (value_write o sz (from_usize sz n)) (put data).

(** structure.template:52-55 *)
Definition struct_write (size : N) (data : bytes) : wr St :=
  wlet (slice data 0 size) put.

End Writers.

(** size.rs:49-53, 56-58: [size_of] given the message's writer. *)
Definition size_of (m : mode) (f : wr N) : rres N :=
  match f 0 with
  | (n, Ok _) => Ok n
  | (_, Err e) => Err e
  | (_, Panic) => Panic
  end.

(** ** Building lists: list_base.rs:31-79 (both [List] and [Array]).
    The buffer [data] is the sink's state. *)

Record listing (St : Type) := { li_data : St; li_len : N }.
Arguments li_data {St}. Arguments li_len {St}.
(** list_base.rs:32-39, 41-43 *)
Definition li_from_raw_parts {St} (data : St) (n : N) : listing St := {| li_data := data; li_len := n |}.
Definition li_new {St} (data : St) : listing St := li_from_raw_parts data 0.
(** list_base.rs:75-79: the list to put into a message, after it was built. *)
Definition li_to_ref (l : listing bytes) : listing bytes := li_from_raw_parts (li_data l) (li_len l).

(** list_base.rs:61-65: the list after the call, and its result. [self.len += 1]
    may overflow. *)
Definition write_item {St} (m : mode) (item : wr St) (l : listing St) : listing St * rres unit :=
  let '(s, r) := item (li_data l) in
  match r with
  | Ok _ =>
      match uadd m (li_len l) 1 with
      | Ok n => ({| li_data := s; li_len := n |}, Ok tt)
      | Err e => ({| li_data := s; li_len := li_len l |}, Err e)
      | Panic => ({| li_data := s; li_len := li_len l |}, Panic)
      end
  | Err e => ({| li_data := s; li_len := li_len l |}, Err e)
  | Panic => ({| li_data := s; li_len := li_len l |}, Panic)
  end.

(** list_base.rs:67-72 *)
Fixpoint write_items {St} (m : mode) (items : list (wr St)) (l : listing St) : listing St * rres unit :=
  match items with
  | [] => (l, Ok tt)
  | x :: r =>
      let '(l', res) := write_item m x l in
      match res with
      | Ok _ => write_items m r l'
      | Err e => (l', Err e)
      | Panic => (l', Panic)
      end
  end.

(** ** List iterators: list.rs:62-83; [IterOffsets] (85-106) is the same code
    with another item reader. The state is (data, len). *)

Definition iter_state := (bytes * N)%type.
Definition li_iter (l : listing bytes) : iter_state := (li_data l, li_len l).

Definition iter_next {A} (m : mode) (item : reader A) (s : iter_state)
  : rres (option (rres A) * iter_state) :=
  let '(data, n) := s in
  if n =? 0 then Ok (None, s)
  else
    match item data with
    | Panic => Panic
    | Err e => Ok (Some (Err e), s)
    | Ok (size, v) =>
        data' <- slice_from data size ;;
        n' <- usub m n 1 ;;
        Ok (Some (Ok v), (data', n'))
    end.

(** The results of the first [k] calls of [next], until it returns [None]. *)
Fixpoint iter_take {A} (m : mode) (item : reader A) (k : nat) (s : iter_state)
  : rres (list (rres A) * iter_state) :=
  match k with
  | O => Ok ([], s)
  | S k' =>
      '(x, s') <- iter_next m item s ;;
      match x with
      | None => Ok ([], s')
      | Some r => '(rs, s'') <- iter_take m item k' s' ;; Ok (r :: rs, s'')
      end
  end.

(** ** Arrays: array.rs *)

(** array.rs:74-79 *)
Definition arr_from_parts {E} (m : mode) (item_size : N) (data : bytes) (n : N)
  : outcome E (option (listing bytes)) :=
  total <- umul m n item_size ;;
  Ok (if len data =? total then Some {| li_data := data; li_len := n |} else None).

(** array.rs:83-87 and 98-102: the window given to [Item::from]. *)
Definition arr_item {E} (m : mode) (item_size : N) (data : bytes) (index : N) : outcome E bytes :=
  start <- umul m index item_size ;;
  end_ <- uadd m start item_size ;;
  slice data start end_.

(** array.rs:98-102 followed by an update [f] of the window through the
    returned structure. *)
Definition arr_item_mut {E} (m : mode) (item_size : N) (data : bytes) (index : N)
  (f : bytes -> outcome E bytes) : outcome E bytes :=
  start <- umul m index item_size ;;
  end_ <- uadd m start item_size ;;
  update_slice data start end_ f.

(** array.rs:89-94 with 65-71, driven to the end. *)
Definition arr_items {E} (item_size : N) (data : bytes) : outcome E (list bytes) :=
  chunks item_size data.

(** array.rs:104-109 with 52-58: [iter_mut], updating the window of item [i] by
    [f i], in order. *)
Definition arr_items_mut {E} (item_size : N) (data : bytes) (f : nat -> bytes -> outcome E bytes)
  : outcome E bytes :=
  cs <- chunks item_size data ;;
  cs' <- mapM (fun p => f (fst p) (snd p)) (combine (seq 0 (length cs)) cs) ;;
  Ok (concat cs').

(** ** util/mod.rs:53-61 [MultiOptionExt::to_single] *)
Definition to_single {A B} (x : option A * option B) : option (A * B) :=
  match x with
  | (Some a, Some b) => Some (a, b)
  | _ => None
  end.
