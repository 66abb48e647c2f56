(** Specification of the wire format, written from its description and not from
    the reader or the writer: [encodes x v b] says that the byte string [b] is
    an encoding of the value [v] of message type [x]. *)

From Coq Require Import Arith NArith List Bool.
From Verif Require Import Base Schema Compiler Access Bits SpecUtf8 Runtime Gen.
Import ListNotations.
Local Open Scope N_scope.

(** [b] is the number [n] written with [size] bytes. *)
Definition number (e : endianness) (size : nat) (n : N) (b : bytes) : Prop :=
  length b = size /\ bytes_ok b /\
  n = be_value (match e with Little => rev b | Big => b end).

Definition no_nul (s : bytes) : Prop := Forall (fun x => x <> 0) s.

Section Wire.
(** [m]: overflow mode of the program, only used to run the accessor that
    fetches a union's discriminant; [present p]: byte [p] announces that an
    optional value follows. *)
Variables (m : mode) (present : N -> Prop).

(** An optional value is preceded by a presence byte; 0 means absent. *)
Definition enc_optional (opt : bool) (f : value -> bytes -> Prop) (v : value) (b : bytes) : Prop :=
  if opt then
    match v with
    | VOpt None => b = [0]
    | VOpt (Some x) => exists p b', 0 < p < 256 /\ present p /\ b = p :: b' /\ f x b'
    | _ => False
    end
  else f v b.

(** [prev] are the members of the message before the field. *)
Fixpoint enc_ref (r : referenced) (v : value) (b : bytes) {struct r} : Prop :=
  match r, v with
  | RStruct s, VStruct data => len data = s_byte_size s /\ bytes_ok data /\ b = data
  | RMessage x, _ => enc_msg x v b
  | _, _ => False
  end
with enc_ty (endi : endianness) (prev : list value) (t : mfield_type) (v : value) (b : bytes) {struct t} : Prop :=
  match t, v with
  | TFixed ty, VScalar n => number endi (get_byte_size ty) n b
  | TRef r, _ => enc_ref r v b
  | TNullTerminatedString, VStr s => is_utf8 s /\ no_nul s /\ b = s ++ [0]
  | TVarcharString ty, VStr s =>
      is_utf8 s /\ exists p, number endi (get_byte_size ty) (len s) p /\ b = p ++ s
  | TArray ty s, VListing data n =>
      len data = n * s_byte_size s /\ bytes_ok data /\
      exists p, number endi (get_byte_size ty) n p /\ b = p ++ data
  | TUnion u _ on_index, VUnion k item => enc_union u (nth_error prev on_index) k item b
  | TList ty x, VListing data n =>
      exists p items chunks, number endi (get_byte_size ty) n p /\
        n = len items /\ Forall2 (enc_msg x) items chunks /\ data = concat chunks /\ b = p ++ data
  | TPayload, VPayload d => bytes_ok d /\ b = d
  | _, _ => False
  end
(** The variant is the first case whose number is the discriminant. *)
with enc_union (u : union_) (on : option value) (k : nat) (item : option value) (b : bytes) {struct u} : Prop :=
  match u with
  | MkUnion _ d cases _ =>
      exists data disc, on = Some (VStruct data) /\
        path_get (E:=rerror) m (d_root d) (d_index_list d) data = Ok disc /\
        (fix pick (i : nat) (cs : list ucase) {struct cs} : Prop :=
           match cs with
           | [] => False
           | MkUCase _ case t :: r =>
               match i with
               | O => case = disc /\
                      match t, item with
                      | None, None => b = []
                      | Some t, Some x => enc_ref t x b
                      | _, _ => False
                      end
               | S i => case <> disc /\ pick i r
               end
           end) k cases
  end
(** The encodings of the fields, in order. *)
with enc_msg (x : message) (v : value) (b : bytes) {struct x} : Prop :=
  match x, v with
  | MkMessage _ _ fields _, VMsg vs =>
      (fix go (fs : list mfield) (prev rest : list value) (b : bytes) {struct fs} : Prop :=
         match fs, rest with
         | [], [] => b = []
         | MkMField _ ty opt _ endi :: r, y :: rest =>
             exists b1 b2, b = b1 ++ b2 /\ enc_optional opt (enc_ty endi prev ty) y b1 /\
               go r (prev ++ [y]) rest b2
         | _, _ => False
         end) fields [] vs b
  | _, _ => False
  end.

(** The encodings of a list of fields. *)
Fixpoint enc_fields (fs : list mfield) (prev rest : list value) (b : bytes) : Prop :=
  match fs, rest with
  | [], [] => b = []
  | f :: r, y :: rest =>
      exists b1 b2, b = b1 ++ b2 /\
        enc_optional (mf_optional f) (enc_ty (mf_endi f) prev (mf_ty f)) y b1 /\
        enc_fields r (prev ++ [y]) rest b2
  | _, _ => False
  end.

End Wire.

(** The format the writer produces: the presence byte is 1. *)
Definition encodes (m : mode) := enc_msg m (fun p => p = 1).
(** The format with any non-zero presence byte. *)
Definition encodes_lax (m : mode) := enc_msg m (fun _ => True).

(** ** Parts of a message type *)

(** Message [y] occurs directly in a field of type [t]. *)
Inductive inside : mfield_type -> message -> Prop :=
| in_ref : forall y, inside (TRef (RMessage y)) y
| in_list : forall ty y, inside (TList ty y) y
| in_union : forall u on i c y, In c (u_cases u) -> uc_item c = Some (RMessage y) ->
    inside (TUnion u on i) y.

(** [part emb x e f]: [f] is a field of [x] or of a message inside [x], at any
    depth; [e] tells whether the message it is a field of is marked as used in
    a list. *)
Inductive part (emb : N -> bool) (x : message) (e : bool) (f : mfield) : Prop :=
| part_here : In f (m_fields x) -> e = emb (m_id x) -> part emb x e f
| part_deep : forall g y, In g (m_fields x) -> inside (mf_ty g) y -> part emb y e f ->
    part emb x e f.

(** Self-delimiting messages: the reader can tell where they end. They contain
    no payload, and lists only inside messages for which the reader walks the
    items. *)
Definition self_delimiting (emb : N -> bool) (x : message) : Prop :=
  forall e f, part emb x e f ->
    match mf_ty f with TPayload => False | TList _ _ => e = true | _ => True end.

(** A field of a message with mark [e] after which the reader knows where it is. *)
Definition field_delimited (emb : N -> bool) (e : bool) (f : mfield) : Prop :=
  match mf_ty f with TPayload => False | TList _ _ => e = true | _ => True end /\
  forall y, inside (mf_ty f) y -> self_delimiting emb y.

(** Messages that can be read back when they are the whole input: a field that
    is not delimited is the last one, and the items of a list that the reader
    walks are self-delimiting. *)
Inductive readable (emb : N -> bool) : message -> Prop :=
| readable_intro : forall x,
    (forall r f ty y, m_fields x = r ++ [f] -> mf_ty f = TList ty y ->
       emb (m_id x) = true -> self_delimiting emb y) ->
    (forall r f y, m_fields x = r ++ [f] -> inside (mf_ty f) y ->
       (forall ty, mf_ty f <> TList ty y) -> readable emb y) ->
    (forall l f r, m_fields x = l ++ f :: r -> r <> [] -> field_delimited emb (emb (m_id x)) f) ->
    readable emb x.

(** ** Guards *)

(** [y] is [x] or occurs in [x], at any depth. *)
Inductive within : message -> message -> Prop :=
| within_here : forall x, within x x
| within_deep : forall x g y z, In g (m_fields x) -> inside (mf_ty g) y -> within y z -> within x z.

(** The reader looks at every byte it hands out as part of a value: lists are
    walked, and the byte length of an array cannot overflow unnoticed. *)
Definition checked_lengths (m : mode) (emb : N -> bool) (x : message) : Prop :=
  forall e f, part emb x e f ->
    match mf_ty f with
    | TList _ _ => e = true
    | TArray ty s => m = Debug \/ tmod (get_byte_size ty) * s_byte_size s <= 2 ^ 64
    | _ => True
    end.

(** No field of a type whose reader can leave the buffer or overflow: no
    length-prefixed string, and no array whose length in bytes exceeds 64 bits. *)
Definition guarded_lengths (emb : N -> bool) (x : message) : Prop :=
  forall e f, part emb x e f ->
    match mf_ty f with
    | TVarcharString _ => False
    | TArray ty s => tmod (get_byte_size ty) * s_byte_size s + 8 <= 2 ^ 64
    | _ => True
    end.

(** Every union refers to an earlier, mandatory member of structure type whose
    discriminant accessor works on every value of that structure. *)
Definition unions_linked (m : mode) (x : message) : Prop :=
  forall y l f r u on idx, within x y -> m_fields y = l ++ f :: r -> mf_ty f = TUnion u on idx ->
    exists g s, nth_error l idx = Some g /\ mf_ty g = TRef (RStruct s) /\ mf_optional g = false /\
      forall data, len data = s_byte_size s -> bytes_ok data ->
        exists d, path_get (E:=rerror) m (d_root (u_disc u)) (d_index_list (u_disc u)) data = Ok d.

(** ** Writers *)

(** C31: writers that may fail. [received] is what the writer has accepted. *)
Record honest {St} (w : sink St) (received : St -> bytes) : Prop := {
  h_ok : forall s b s' u, write_all w s b = (s', Ok u) -> received s' = received s ++ b;
  h_err : forall s b s' e, write_all w s b = (s', Err e) ->
    exists p q, b = p ++ q /\ received s' = received s ++ p;
  h_no_panic : forall s b s', write_all w s b <> (s', Panic)
}.

(** ** Descriptions of messages that are certain to be readable *)

(** No field of [x], or of a message inside it, is optional. *)
Definition no_optional (emb : N -> bool) (x : message) : Prop :=
  forall e f, part emb x e f -> mf_optional f = false.
