(** Accepted protocols whose code cannot be generated (C46), and samples. *)

From Coq Require Import Arith NArith Ascii String List Bool Lia.
From Verif Require Import Base Schema Codec Compiler Access Runtime Gen Template Templates SpecTemplate Driver SpecComp
  Samples SamplesComp GenText SpecGen SpecCode GenThms GenMsgThms GenAllThms.
Import ListNotations.
Local Open Scope string_scope.

Definition no_items : sprotocol :=
  one_struct [ {| sf_name := "a"; sf_info := STUnsigned 8; sf_view := None; sf_array_len := Some 0%N |} ].
Definition wide_bool : sprotocol := one_struct [ scalar "a" (STBoolean 65) ].
(** A list whose name starts with a two-byte character. *)
Definition accented : sprotocol :=
  {| sp_name := "P"; sp_endianness := None; sp_imports := []; sp_enums := []; sp_unions := [];
     sp_structs := [ {| ss_name := "S"; ss_fields := [ scalar "a" (STUnsigned 8); scalar "b" (STUnsigned 8) ] |} ];
     sp_messages := [ {| sm_name := "M"; sm_fields :=
       [ fld (String (ascii_of_nat 195) (String (ascii_of_nat 169) EmptyString)) (MTList 100 "S") ] |} ] |}.

Ltac widths := unfold widths_usize; repeat constructor; intros b Hb; injection Hb as <-; reflexivity.
Lemma refuted_by : forall v, widths_usize v -> ~ declaration_generates v ->
  (exists pw, protocol_from_model Debug no_imports world0 v = Ok pw) ->
  exists p w, protocol_from_model Debug no_imports world0 v = Ok (p, w) /\ forall fm emb, rust_files fm emb p = Panic.
Proof.
  intros v Hw Hn ([p w] & H). exists p, w. split; [exact H|]. intros fm emb.
  destruct (generation Debug fm emb no_imports world0 v p w) as [[Hg _]|[_ Hp]]; try assumption; [|contradiction].
  intros n q Hq. discriminate.
Qed.
Lemma no_items_refuted : exists p w,
  protocol_from_model Debug no_imports world0 no_items = Ok (p, w) /\ forall fm emb, rust_files fm emb p = Panic.
Proof.
  apply refuted_by; [widths| |eexists; vm_compute; reflexivity].
  intros [H _]. inversion H as [|? ? H1 _]; subst. inversion H1 as [|? ? H2 _]; subst. exact H2.
Qed.
Lemma wide_bool_refuted : exists p w,
  protocol_from_model Debug no_imports world0 wide_bool = Ok (p, w) /\ forall fm emb, rust_files fm emb p = Panic.
Proof.
  apply refuted_by; [widths| |eexists; vm_compute; reflexivity].
  intros [H _]. inversion H as [|? ? H1 _]; subst. inversion H1 as [|? ? H2 _]; subst. cbn in H2. lia.
Qed.
Lemma accented_refuted : exists p w,
  protocol_from_model Debug no_imports world0 accented = Ok (p, w) /\ forall fm emb, rust_files fm emb p = Panic.
Proof.
  apply refuted_by; [widths| |eexists; vm_compute; reflexivity].
  intros [_ H]. inversion H as [|? ? H1 _]; subst. inversion H1 as [|? ? H2 _]; subst. cbn in H2. lia.
Qed.

Lemma main_widths : widths_usize main_v.
Proof. unfold widths_usize. repeat constructor; intros b Hb; try discriminate Hb; injection Hb as <-; reflexivity. Qed.
Lemma main_generates : declaration_generates main_v.
Proof.
  split; repeat constructor; cbn; try discriminate; try lia; right; lia.
Qed.
