(** Meaning of the message and union code emitted by the Rust generator:
    compiler/src/gen/base/message*.rs, gen/rust/union.rs with
    gen/rust/message*.template and gen/rust/union.template.

    The generator emits one statement per field; the functions below run these
    statements for the compiled message type. Variables and structure members
    are named after the fields; rustc rejects two fields of one name, so the
    variable [{on_name}] is the one of field number [on_index].

    Simplification: the text is not modelled here, nor whether rustc accepts it
    (for example [Optional<ValueLE<u8>>] does not satisfy the trait bounds);
    such code is given the meaning its templates suggest. *)

From Coq Require Import Arith NArith List Bool.
From Verif Require Import Base Schema Codec Compiler Access Runtime.
Import ListNotations.
Local Open Scope N_scope.

(** Values of the generated types (message.template, union.template):
    numbers by their bit pattern, structures by their data, strings by their
    UTF-8 bytes, arrays and lists by data and length, unions by the number of
    the variant and its content, messages by their members in order. *)
Inductive value :=
| VScalar (n : N)
| VStruct (data : bytes)
| VStr (s : bytes)
| VListing (data : bytes) (n : N)
| VUnion (variant : nat) (item : option value)
| VMsg (fields : list value)
| VPayload (b : bytes)
| VOpt (o : option value).

Definition rmap {A B} (f : A -> B) (r : reader A) : reader B := fun b =>
  '(n, a) <- r b ;; Ok (n, f a).

(** gen/rust/util.rs:143-155: ValueLE or ValueBE of the field's type. *)
Definition value_reader (e : endianness) (ty : fixed_type) : reader N :=
  value_from_slice (order_of e) (get_byte_size ty).

(** ** Reading *)

Section Read.
(** [m]: overflow checks of the program that reads; [embedded]:
    [Message::is_embedded] when the code was generated. *)
Variables (m : mode) (embedded : N -> bool).

(** gen/base/message_from_slice.rs:36-42: [Optional<T>] around the type of an
    optional field. *)
Definition read_optional (opt : bool) (r : reader value) : reader value :=
  if opt then rmap VOpt (optional_from_slice m r) else r.

(** The discriminant read by a union: union.template:99, 111. *)
Definition read_discriminant (d : disc_field) (on : option value) : rres N :=
  match on with
  | Some (VStruct data) => path_get m (d_root d) (d_index_list d) data
  | _ => Panic
  end.

(** [read_ref]: a structure (structure.template:63) or a message.
    [read_ty]: gen/base/message_from_slice.rs:44-78, for a field of a message
    with [is_embedded() = emb] whose previous members are [prev].
    [read_union]: union.template:96-119, gen/rust/union.rs:61-80.
    [read_msg]: message.from_slice.template:5-30. *)
Fixpoint read_ref (r : referenced) : reader value :=
  match r with
  | RStruct s => rmap VStruct (struct_from_slice (s_byte_size s))
  | RMessage x => read_msg x
  end
with read_ty (emb : bool) (endi : endianness) (prev : list value) (t : mfield_type) : reader value :=
  match t with
  | TFixed ty => rmap VScalar (value_reader endi ty)
  | TRef r => read_ref r
  | TNullTerminatedString => rmap VStr (nts_from_slice m)
  | TVarcharString ty => rmap VStr (varchar_from_slice m (value_reader endi ty))
  | TArray ty s =>
      rmap (fun p => VListing (fst p) (snd p)) (array_from_slice m (value_reader endi ty) (s_byte_size s))
  | TUnion u _ on_index => read_union u (nth_error prev on_index)
  | TList ty x =>
      rmap (fun p => VListing (fst p) (snd p))
        (if emb then list_from_slice m (value_reader endi ty) (read_msg x)
         else unsized_from_slice (value_reader endi ty))
  | TPayload => rmap VPayload buffer_from_slice
  end
with read_union (u : union_) (on : option value) : reader value :=
  match u with
  | MkUnion _ d cases _ => fun b =>
      disc <- read_discriminant d on ;;
      (fix pick (i : nat) (cs : list ucase) : rres (N * value) :=
         match cs with
         | [] => Err (InvalidUnionDiscriminant disc)
         | MkUCase _ case item :: r =>
             if disc =? case then
               match item with
               | None => Ok (0, VUnion i None)
               | Some t => '(n, v) <- read_ref t b ;; Ok (n, VUnion i (Some v))
               end
             else pick (S i) r
         end) O cases
  end
with read_msg (x : message) : reader value :=
  match x with
  | MkMessage id _ fields _ => fun b =>
      (fix go (fs : list mfield) (byte_offset : N) (prev : list value) : rres (N * value) :=
         match fs with
         | [] => Ok (byte_offset, VMsg prev)
         | MkMField _ ty opt _ endi :: r =>
             d <- slice_from b byte_offset ;;
             '(n, v) <- read_optional opt (read_ty (embedded id) endi prev ty) d ;;
             byte_offset <- uadd m byte_offset n ;;
             go r byte_offset (prev ++ [v])
         end) fields 0 []
  end.

(** The statements of the fields [fs] alone, from a given state. *)
Fixpoint read_fields (emb : bool) (b : bytes) (fs : list mfield) (byte_offset : N) (prev : list value)
  : rres (N * list value) :=
  match fs with
  | [] => Ok (byte_offset, prev)
  | MkMField _ ty opt _ endi :: r =>
      d <- slice_from b byte_offset ;;
      '(n, v) <- read_optional opt (read_ty emb endi prev ty) d ;;
      byte_offset <- uadd m byte_offset n ;;
      read_fields emb b r byte_offset (prev ++ [v])
  end.

(** ** Offsets *)

(** message.offsets.template:1-15: per field its [FieldOffset] (start, end) and,
    for a message field that is present, the offsets inside it. *)
Inductive offsets := MkOffsets (l : list (N * N * option offsets)).

(** message.offsets.template:21-55 *)
Fixpoint read_msg_offsets (x : message) : reader (value * offsets) :=
  match x with
  | MkMessage id _ fields _ => fun b =>
      (fix go (fs : list mfield) (byte_offset : N) (prev : list value) (offs : list (N * N * option offsets))
         : rres (N * (value * offsets)) :=
         match fs with
         | [] => Ok (byte_offset, (VMsg prev, MkOffsets offs))
         | MkMField _ ty opt _ endi :: r =>
             d <- slice_from b byte_offset ;;
             '(n, (v, nested)) <-
               match ty with
               | TRef (RMessage y) =>
                   if opt then
                     '(n, (v, o)) <- optional_from_slice_with_offsets m (read_msg_offsets y) d ;;
                     Ok (n, (VOpt v, o))
                   else '(n, (v, o)) <- read_msg_offsets y d ;; Ok (n, (v, Some o))
               | _ =>
                   '(n, v) <- read_optional opt (read_ty (embedded id) endi prev ty) d ;;
                   Ok (n, (v, None))
               end ;;
             end_ <- uadd m byte_offset n ;;
             go r end_ (prev ++ [v]) (offs ++ [(byte_offset, end_, nested)])
         end) fields 0 [] []
  end.

End Read.

(** ** Writing *)

Section Write.
Variables (m : mode).
Context {St : Type} (w : sink St).

(** gen/rust/union.rs:37-43: whether any case has an item. *)
Definition union_has_items (cases : list ucase) : bool :=
  existsb (fun c => match uc_item c with Some _ => true | None => false end) cases.

(** A value that does not have the type of the field does not exist in Rust; it
    is a panic here. [write_union]: union.template:67-88; [write_msg]:
    message.write.template:5-14. The inline type of a list is [List] whether or
    not the message is embedded (message.write.template:26-32). *)
Definition write_optional (opt : bool) (f : value -> wr St) (v : value) : wr St :=
  if opt then match v with VOpt o => optional_write w f o | _ => wpanic end else f v.

Fixpoint write_ref (r : referenced) (v : value) {struct r} : wr St :=
  match r with
  | RStruct s => match v with VStruct data => struct_write w (s_byte_size s) data | _ => wpanic end
  | RMessage x => write_msg x v
  end
with write_ty (endi : endianness) (all : list value) (t : mfield_type) (v : value) {struct t} : wr St :=
  match t, v with
  | TFixed ty, VScalar n => value_write w (order_of endi) (get_byte_size ty) n
  | TRef r, _ => write_ref r v
  | TNullTerminatedString, VStr s => nts_write w s
  | TVarcharString ty, VStr s => varchar_write w (order_of endi) (get_byte_size ty) s
  | TArray ty _, VListing data n => listing_write w (order_of endi) (get_byte_size ty) data n
  | TUnion u _ on_index, _ => write_union u (nth_error all on_index) v
  | TList ty _, VListing data n => listing_write w (order_of endi) (get_byte_size ty) data n
  | TPayload, VPayload b => buffer_write w b
  | _, _ => wpanic
  end
with write_union (u : union_) (on : option value) (v : value) {struct u} : wr St :=
  match u with
  | MkUnion _ d cases _ =>
      if union_has_items cases then
        wlet (read_discriminant m d on) (fun disc =>
          match v with
          | VUnion k item =>
              (fix pick (i : nat) (cs : list ucase) {struct cs} : wr St :=
                 match cs with
                 | [] => wpanic
                 | MkUCase _ case t :: r =>
                     match i with
                     | O => match t, item with
                            | None, None => wdone
                            | Some t, Some x =>
                                if disc =? case then write_ref t x else wfail (InvalidUnionDiscriminant disc)
                            | _, _ => wpanic
                            end
                     | S i => pick i r
                     end
                 end) k cases
          | _ => wpanic
          end)
      else match v with VUnion _ _ => wdone | _ => wpanic end
  end
with write_msg (x : message) (v : value) {struct x} : wr St :=
  match x, v with
  | MkMessage _ _ fields _, VMsg vs =>
      (fix go (fs : list mfield) (rest : list value) {struct fs} : wr St :=
         match fs, rest with
         | [], [] => wdone
         | MkMField _ ty opt _ endi :: r, y :: rest =>
             wseq (write_optional opt (write_ty endi vs ty) y) (go r rest)
         | _, _ => wpanic
         end) fields vs
  | _, _ => wpanic
  end.

(** The statements of the fields [fs] alone. *)
Fixpoint write_fields (all : list value) (fs : list mfield) (rest : list value) : wr St :=
  match fs, rest with
  | [], [] => wdone
  | MkMField _ ty opt _ endi :: r, y :: rest =>
      wseq (write_optional opt (write_ty endi all ty) y) (write_fields all r rest)
  | _, _ => wpanic
  end.

End Write.

(** union.template:49-60 [set_discriminant] on the data of a structure. *)
Definition set_discriminant (m : mode) (u : union_) (variant : nat) (data : bytes) : rres bytes :=
  c <- unwrap (nth_error (u_cases u) variant) ;;
  path_set m (d_root (u_disc u)) (d_index_list (u_disc u)) data (uc_case c).

(** runtime size.rs:56-58 applied to a message. *)
Definition size_of_msg (m : mode) (x : message) (v : value) : rres N :=
  size_of m (write_msg m (counter_sink m) x v).

(** Writing into a [Vec<u8>]. *)
Definition write_vec (m : mode) (x : message) (v : value) : wr bytes := write_msg m vec_sink x v.
