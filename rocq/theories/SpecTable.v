(** Vocabulary for lists of structures as tables of rows. No proofs. *)

From Coq Require Import Arith NArith List.
From Verif Require Import Base Codec Runtime ArrayWrapper.
Import ListNotations.
Local Open Scope N_scope.

(** A call on the generated type, over a vector. *)
Inductive call :=
| CAdd (item : bytes)
| CAddAll (items : list bytes)
| CLen
| CGet (i : N)
| CPut (i : N) (f : bytes -> bytes)
| CAll
| CPutAll (f : nat -> bytes -> bytes).
(** What the caller sees. *)
Inductive answer :=
| ADone
| ANumber (n : N)
| ARow (row : bytes)
| ARows (rows : list bytes).

(** The calls in the model: the answers in turn and the object at the end, none
    after a panic (or an error of the writer, which a vector never returns). *)
Definition wrote (r : wrapper bytes * rres unit) : option (answer * wrapper bytes) :=
  match r with (a, Ok _) => Some (ADone, a) | _ => None end.
Definition updated (r : rres (wrapper bytes)) : option (answer * wrapper bytes) :=
  match r with Ok a => Some (ADone, a) | _ => None end.
Definition called (m : mode) (size : N) (c : call) (a : wrapper bytes) : option (answer * wrapper bytes) :=
  match c with
  | CAdd item => wrote (aw_write_item vec_sink m size item a)
  | CAddAll items => wrote (aw_write_items vec_sink m size items a)
  | CLen => Some (ANumber (aw_len a), a)
  | CGet i => match aw_get m size i a with Ok row => Some (ARow row, a) | _ => None end
  | CPut i f => updated (aw_get_mut m size i (fun w => Ok (f w)) a)
  | CAll => match aw_iter size a with Ok rows => Some (ARows rows, a) | _ => None end
  | CPutAll f => updated (aw_iter_mut size (fun i w => Ok (f i w)) a)
  end.
(** The same calls on a table. An item is the first [size] bytes of its buffer. *)
Fixpoint replace (n : nat) (f : bytes -> bytes) (rows : list bytes) : list bytes :=
  match rows, n with
  | [], _ => []
  | row :: rest, O => f row :: rest
  | row :: rest, S k => row :: replace k f rest
  end.
Definition row_of (size : N) (item : bytes) : bytes := firstn (N.to_nat size) item.
Definition long_enough (size : N) (item : bytes) : bool := size <=? len item.
Definition on_table (size : N) (c : call) (rows : list bytes) : option (answer * list bytes) :=
  match c with
  | CAdd item => if long_enough size item then Some (ADone, rows ++ [row_of size item]) else None
  | CAddAll items => if forallb (long_enough size) items then Some (ADone, rows ++ map (row_of size) items) else None
  | CLen => Some (ANumber (len rows), rows)
  | CGet i => match nth_error rows (N.to_nat i) with Some row => Some (ARow row, rows) | None => None end
  | CPut i f => if i <? len rows then Some (ADone, replace (N.to_nat i) f rows) else None
  | CAll => Some (ARows rows, rows)
  | CPutAll f => Some (ADone, map (fun p => f (fst p) (snd p)) (combine (seq 0 (length rows)) rows))
  end.

(** A history of calls, which ends with the first panic. *)
Fixpoint history {S} (step : call -> S -> option (answer * S)) (cs : list call) (s : S) : list answer * option S :=
  match cs with
  | [] => ([], Some s)
  | c :: rest =>
      match step c s with
      | None => ([], None)
      | Some (x, s') => let '(xs, e) := history step rest s' in (x :: xs, e)
      end
  end.

(** The object holds the rows. *)
Definition holds_rows (size : N) (a : wrapper bytes) (rows : list bytes) : Prop :=
  li_data (aw_0 a) = concat rows /\ aw_len a = len rows /\ Forall (fun row => len row = size) rows.

(** Updates keep the size of a row, as the accessors of structures do; and in a
    release build, where the product of index and size wraps, indices are small. *)
Definition sane (m : mode) (size : N) (c : call) : Prop :=
  let small i := m = Debug \/ (i + 1) * size < 2 ^ 64 in
  match c with
  | CGet i => small i
  | CPut i f => small i /\ forall w, len w = size -> len (f w) = size
  | CPutAll f => forall i w, len w = size -> len (f i w) = size
  | _ => True
  end.
(** The number of bytes that a history adds at most. *)
Definition adds (size : N) (c : call) : N :=
  match c with CAdd _ => size | CAddAll items => len items * size | _ => 0 end.
Fixpoint total (size : N) (cs : list call) : N :=
  match cs with [] => 0 | c :: rest => adds size c + total size rest end.
