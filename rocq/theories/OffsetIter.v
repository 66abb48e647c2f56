(** Proofs for C84: iterating a list with offsets. *)

From Coq Require Import Arith NArith ZArith List Bool Lia ZifyBool ZifyN ZifyNat.
From Verif Require Import Base Schema Codec Compiler Access Bits BitsFacts CodecFacts StructFacts
  Runtime Gen SpecWire MsgFacts ReadThms SoundThms SpecOffsets OffsetThms.
Import ListNotations.
Local Open Scope N_scope.

Theorem offsets_iterate : forall m emb y k data n, len data < 2 ^ 64 ->
  match iter_take m (read_msg m emb y) k (data, n) with
  | Ok (rs, s) => exists ros, iter_take m (read_msg_offsets m emb y) k (data, n) = Ok (ros, s) /\ with_offsets m emb y data rs ros
  | Err e => iter_take m (read_msg_offsets m emb y) k (data, n) = Err e
  | Panic => iter_take m (read_msg_offsets m emb y) k (data, n) = Panic
  end.
Proof.
  intros m emb y. induction k as [|k IH]; intros data n L.
  - cbn [iter_take]. exists []. split; [reflexivity|constructor].
  - cbn [iter_take]. unfold iter_next. destruct (N.eqb_spec n 0) as [->|Hn].
    + cbn [bind]. exists []. split; [reflexivity|constructor].
    + pose proof (offsets_correct m emb y data L) as O.
      destruct (read_msg m emb y data) as [[c v]|e|] eqn:R.
      * destruct O as (o & EO & De). rewrite EO. pose proof (read_bounded m emb y data c v L R) as Hc.
        rewrite slice_from_ok by exact Hc. cbn [bind].
        destruct (usub m n 1) as [n'| |]; [|reflexivity|reflexivity]. cbn [bind].
        assert (L' : len (skipn (N.to_nat c) data) < 2 ^ 64) by (unfold len in *; rewrite skipn_length; lia).
        specialize (IH _ n' L'). destruct (iter_take m (read_msg m emb y) k _) as [[rs s]| |]; cbn [bind].
        -- destruct IH as (ros & E & W). rewrite E. cbn [bind]. eexists. split; [reflexivity|].
           rewrite <- (firstn_skipn (N.to_nat c) data). constructor; assumption.
        -- rewrite IH. reflexivity.
        -- rewrite IH. reflexivity.
      * rewrite O. cbn [bind]. specialize (IH data n L). destruct (iter_take m (read_msg m emb y) k _) as [[rs s]| |]; cbn [bind].
        -- destruct IH as (ros & E & W). rewrite E. cbn [bind]. eexists. split; [reflexivity|]. constructor. exact W.
        -- rewrite IH. reflexivity.
        -- rewrite IH. reflexivity.
      * rewrite O. reflexivity.
Qed.
