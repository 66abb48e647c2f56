(** Property theorems C65: the build profile. A program built with overflow
    checks (debug) either panics or does exactly what the same program built
    without them (release) does. [same_or_panic] and [same_write_or_panic] are
    defined in SpecMode. *)

From Coq Require Import Arith NArith ZArith Ascii String List Bool Lia.
From Verif Require Import Base Schema Codec Bits Compiler Access Runtime Gen Loader SpecStruct SpecWire SpecMode ModeThms
  Samples SamplesComp SamplesMsg WriteThms.
Import ListNotations.
Local Open Scope N_scope.

(** ** Accessors of structures *)

Theorem C65_get : forall (f : fixed_field) data,
  same_or_panic (E:=rerror) (get_raw Debug f data) (get_raw Release f data) /\
  same_or_panic (E:=rerror) (get_view Debug f data) (get_view Release f data).
Proof. exact (fun f data => conj (mode_get_raw f data) (mode_get_view f data)). Qed.
Print Assumptions C65_get.

Theorem C65_set : forall (f : fixed_field) data n v,
  same_or_panic (E:=rerror) (set_raw Debug f data n) (set_raw Release f data n) /\
  same_or_panic (E:=rerror) (set_view Debug f data v) (set_view Release f data v).
Proof. exact (fun f data n v => conj (mode_set_raw f data n) (mode_set_view f data v)). Qed.
Print Assumptions C65_set.

Theorem C65_array : forall (f : array_field) data i n,
  same_or_panic (E:=rerror) (arr_get Debug f data i) (arr_get Release f data i) /\
  same_or_panic (E:=rerror) (arr_set Debug f data i n) (arr_set Release f data i n).
Proof. exact (fun f data i n => conj (mode_arr_get f data i) (mode_arr_set f data i n)). Qed.
Print Assumptions C65_array.

Theorem C65_nested : forall s path data n,
  same_or_panic (E:=rerror) (path_get Debug s path data) (path_get Release s path data) /\
  same_or_panic (E:=rerror) (path_set Debug s path data n) (path_set Release s path data n).
Proof. exact (fun s path data n => conj (mode_path_get path s data) (mode_path_set path s data n)). Qed.
Print Assumptions C65_nested.

(** The codecs on their own, for every offset and width. *)
Theorem C65_codec : forall o sz bit_offset bit_size data n,
  same_or_panic (E:=rerror) (bit_read Debug o sz bit_offset bit_size data) (bit_read Release o sz bit_offset bit_size data) /\
  same_or_panic (E:=rerror) (bit_write Debug o sz bit_offset bit_size data n) (bit_write Release o sz bit_offset bit_size data n).
Proof. exact (fun o sz bo bs data n => conj (mode_bit_read o sz bo bs data) (mode_bit_write o sz bo bs data n)). Qed.
Print Assumptions C65_codec.

(** ** Messages, unions, lists and arrays *)

Theorem C65_read : forall emb x b, same_or_panic (read_msg Debug emb x b) (read_msg Release emb x b).
Proof. exact mode_read. Qed.
Print Assumptions C65_read.

Theorem C65_read_offsets : forall emb x b,
  same_or_panic (read_msg_offsets Debug emb x b) (read_msg_offsets Release emb x b).
Proof. exact mode_read_offsets. Qed.
Print Assumptions C65_read_offsets.

(** For every destination: the bytes that reached it, and its errors, are the
    same too. *)
Theorem C65_write : forall St (w : sink St) x v,
  same_write_or_panic (write_msg Debug w x v) (write_msg Release w x v).
Proof. exact mode_write. Qed.
Print Assumptions C65_write.

Theorem C65_size : forall x v, same_or_panic (size_of_msg Debug x v) (size_of_msg Release x v).
Proof. exact mode_size_of. Qed.
Print Assumptions C65_size.

Theorem C65_discriminant : forall u variant data,
  same_or_panic (set_discriminant Debug u variant data) (set_discriminant Release u variant data).
Proof. exact mode_set_discriminant. Qed.
Print Assumptions C65_discriminant.

Theorem C65_build_list : forall St (w : sink St) x vs l,
  snd (write_items Debug (map (write_msg Debug w x) vs) l) = Panic \/
  write_items Release (map (write_msg Release w x) vs) l = write_items Debug (map (write_msg Debug w x) vs) l.
Proof. exact mode_write_items. Qed.
Print Assumptions C65_build_list.

Theorem C65_iterate : forall emb x k s,
  same_or_panic (iter_take Debug (read_msg Debug emb x) k s) (iter_take Release (read_msg Release emb x) k s) /\
  same_or_panic (iter_take Debug (read_msg_offsets Debug emb x) k s) (iter_take Release (read_msg_offsets Release emb x) k s).
Proof. exact (fun emb x k s => conj (mode_iterate emb x k s) (mode_iterate_offsets emb x k s)). Qed.
Print Assumptions C65_iterate.

Theorem C65_array_items : forall size data i f,
  same_or_panic (E:=rerror) (arr_item Debug size data i) (arr_item Release size data i) /\
  same_or_panic (E:=rerror) (arr_item_mut Debug size data i f) (arr_item_mut Release size data i f) /\
  same_or_panic (E:=rerror) (arr_from_parts Debug size data i) (arr_from_parts Release size data i).
Proof. exact (fun size data i f => conj (mode_arr_item size data i) (conj (mode_arr_item_mut size data i f) (mode_arr_from_parts size data i))). Qed.
Print Assumptions C65_array_items.

(** ** The compiler *)

Theorem C65_compile : forall solver w v,
  same_or_panic (protocol_from_model Debug solver w v) (protocol_from_model Release solver w v).
Proof. exact mode_protocol. Qed.
Print Assumptions C65_compile.

Theorem C65_load : forall l solver, same_or_panic (loader_compile Debug l solver) (loader_compile Release l solver).
Proof. exact mode_loader. Qed.
Print Assumptions C65_load.

(** Both cases occur: the sample message is read and written by both builds,
    and the index of an array overflows in one of them only. *)
Example C65_nonvacuous :
  read_msg Debug main_emb packet_x packet_b = Ok (45, packet_v) /\
  read_msg Release main_emb packet_x packet_b = Ok (45, packet_v) /\
  write_vec Debug packet_x packet_v [] = (packet_b, Ok tt) /\
  size_of_msg Debug packet_x packet_v = Ok 45 /\
  arr_item (E:=rerror) Debug 2 [1; 2; 3; 4] (2 ^ 63 + 1) = Panic /\
  arr_item (E:=rerror) Release 2 [1; 2; 3; 4] (2 ^ 63 + 1) = Ok [3; 4].
Proof. repeat split; vm_compute; reflexivity. Qed.

Example C65_compile_nonvacuous :
  protocol_from_model Debug main_solver world0 main_v = protocol_from_model Release main_solver world0 main_v /\
  (exists pw, protocol_from_model Debug main_solver world0 main_v = Ok pw) /\
  protocol_from_model Debug no_imports world0 (one_struct [scalar "x" (STSigned 65)]) = Panic /\
  protocol_from_model Release no_imports world0 (one_struct [scalar "x" (STSigned 65)]) = Err (EUnsupportedBitSize 65).
Proof.
  split; [vm_compute; reflexivity|]. split; [eexists; vm_compute; reflexivity|].
  split; vm_compute; reflexivity.
Qed.
