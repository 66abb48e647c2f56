(** Specification vocabulary for C89: how much work reading is. The generated reader once more, with a
    counter: [count_msg] reads a message and counts how often it sets out to read an item of a list, at
    any depth. Between two such items lie only the members of the messages they are in, of which the
    description fixes the number. That it is the reader is [StepsThms.counts_reader]. *)

From Coq Require Import Arith NArith List Bool.
From Verif Require Import Base Schema Codec Compiler Access Runtime Gen SpecWire.
Import ListNotations.
Local Open Scope N_scope.

(** A result and how often an item was tried. *)
Definition tally (A : Type) : Type := rres A * N.
Definition plain {A} (r : rres A) : tally A := (r, 0).
Definition andthen {A B} (t : tally A) (f : A -> tally B) : tally B :=
  match t with
  | (Ok a, k) => let '(r, k') := f a in (r, k + k')
  | (Err e, k) => (Err e, k)
  | (Panic, k) => (Panic, k)
  end.
Definition counter (A : Type) : Type := bytes -> tally (N * A).
Definition cmap {A B} (f : A -> B) (r : counter A) : counter B := fun b => andthen (r b) (fun p => plain (Ok (fst p, f (snd p)))).

Section Count.
(** As in Gen.v. *)
Variables (m : mode) (embedded : N -> bool).

(** runtime/src/message/util/list.rs: the loop over the items, as Runtime.v [list_loop]. *)
Fixpoint count_loop {A} (item : counter A) (data : bytes) (n : nat) (total_size : N) : tally N :=
  match n with
  | O => plain (Ok total_size)
  | S k =>
      andthen (plain (slice_from data total_size)) (fun d =>
      andthen (let '(r, c) := item d in (r, c + 1)) (fun p =>
      andthen (plain (uadd m total_size (fst p))) (fun total_size =>
      count_loop item data k total_size)))
  end.
Definition count_list {A} (t : reader N) (item : counter A) : counter (bytes * N) := fun b =>
  andthen (plain (t b)) (fun p => let '(control_size, n) := p in
  andthen (plain (slice_from b control_size)) (fun data =>
  andthen (count_loop item data (N.to_nat n) 0) (fun total_size =>
  plain (end_ <- uadd m control_size total_size ;;
         d <- slice b control_size end_ ;;
         size <- uadd m total_size control_size ;;
         Ok (size, (d, n)))))).
(** Runtime.v [optional_from_slice] *)
Definition count_optional (opt : bool) (r : counter value) : counter value :=
  if opt then fun b =>
    if len b <? 1 then plain (Err Truncated)
    else andthen (plain (unwrap (nth_error b 0))) (fun flag =>
      if 0 <? flag then
        andthen (plain (slice_from b 1)) (fun d =>
        andthen (r d) (fun p => plain (size <- uadd m (fst p) 1 ;; Ok (size, VOpt (Some (snd p))))))
      else plain (Ok (1, VOpt None)))
  else r.

(** Gen.v [read_ref], [read_ty], [read_union], [read_msg] *)
Fixpoint count_ref (r : referenced) : counter value :=
  match r with
  | RStruct s => fun b => plain (rmap VStruct (struct_from_slice (s_byte_size s)) b)
  | RMessage x => count_msg x
  end
with count_ty (emb : bool) (endi : endianness) (prev : list value) (t : mfield_type) : counter value :=
  match t with
  | TFixed ty => fun b => plain (rmap VScalar (value_reader endi ty) b)
  | TRef r => count_ref r
  | TNullTerminatedString => fun b => plain (rmap VStr (nts_from_slice m) b)
  | TVarcharString ty => fun b => plain (rmap VStr (varchar_from_slice m (value_reader endi ty)) b)
  | TArray ty s => fun b =>
      plain (rmap (fun p => VListing (fst p) (snd p)) (array_from_slice m (value_reader endi ty) (s_byte_size s)) b)
  | TUnion u _ on_index => count_union u (nth_error prev on_index)
  | TList ty x =>
      cmap (fun p => VListing (fst p) (snd p))
        (if emb then count_list (value_reader endi ty) (count_msg x)
         else fun b => plain (unsized_from_slice (value_reader endi ty) b))
  | TPayload => fun b => plain (rmap VPayload buffer_from_slice b)
  end
with count_union (u : union_) (on : option value) : counter value :=
  match u with
  | MkUnion _ d cases _ => fun b =>
      andthen (plain (read_discriminant m d on)) (fun disc =>
      (fix pick (i : nat) (cs : list ucase) : tally (N * value) :=
         match cs with
         | [] => plain (Err (InvalidUnionDiscriminant disc))
         | MkUCase _ case item :: r =>
             if disc =? case then
               match item with
               | None => plain (Ok (0, VUnion i None))
               | Some t => andthen (count_ref t b) (fun p => plain (Ok (fst p, VUnion i (Some (snd p)))))
               end
             else pick (S i) r
         end) O cases)
  end
with count_msg (x : message) : counter value :=
  match x with
  | MkMessage id _ fields _ => fun b =>
      (fix go (fs : list mfield) (byte_offset : N) (prev : list value) : tally (N * value) :=
         match fs with
         | [] => plain (Ok (byte_offset, VMsg prev))
         | MkMField _ ty opt _ endi :: r =>
             andthen (plain (slice_from b byte_offset)) (fun d =>
             andthen (count_optional opt (count_ty (embedded id) endi prev ty) d) (fun p =>
             andthen (plain (uadd m byte_offset (fst p))) (fun byte_offset =>
             go r byte_offset (prev ++ [snd p]))))
         end) fields 0 []
  end.
End Count.

(** How often reading [x] from [b] sets out to read an item of a list. *)
Definition items_tried (m : mode) (emb : N -> bool) (x : message) (b : bytes) : N := snd (count_msg m emb x b).

(** A message that is never empty on the wire: one of its members takes up bytes. *)
Inductive takes_bytes : message -> Prop :=
| takes_member : forall x f, In f (m_fields x) -> mf_optional f = true \/ takes_type (mf_ty f) -> takes_bytes x
with takes_type : mfield_type -> Prop :=
| takes_scalar : forall ty, takes_type (TFixed ty)
| takes_text : takes_type TNullTerminatedString
| takes_string : forall ty, takes_type (TVarcharString ty)
| takes_array : forall ty s, takes_type (TArray ty s)
| takes_list : forall ty y, takes_type (TList ty y)
| takes_structure : forall s, 0 < s_byte_size s -> takes_type (TRef (RStruct s))
| takes_message : forall y, takes_bytes y -> takes_type (TRef (RMessage y)).

(** The items of the lists that the reader walks are never empty. *)
Definition items_take_bytes (emb : N -> bool) (x : message) : Prop :=
  forall f ty y, part emb x true f -> mf_ty f = TList ty y -> takes_bytes y.
