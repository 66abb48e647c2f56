(** More about lists and arrays of the runtime: a failure in the middle of
    [write_items], and [iter_mut]. *)

From Coq Require Import Arith NArith ZArith List Bool Lia ZifyBool ZifyN ZifyNat.
From Verif Require Import Base Schema Codec Bits BitsFacts Compiler Access StructFacts Runtime Gen SpecWire SpecOffsets MsgFacts WriteThms ReadThms
  SoundThms TotalThms OffsetThms
  ListThms.
Import ListNotations.
Local Open Scope N_scope.

Lemma write_items_app : forall St m (xs ys : list (wr St)) l,
  write_items m (xs ++ ys) l =
  match write_items m xs l with (l', Ok _) => write_items m ys l' | p => p end.
Proof.
  intros St m xs ys. induction xs as [|x xs IH]; intro l; cbn [app write_items].
  - reflexivity.
  - destruct (write_item m x l) as [l' []]; [apply IH|reflexivity..].
Qed.

Theorem write_items_stop : forall m x vs bs (f : wr bytes) rest (l : listing bytes) s e, Forall2 (encodes m x) vs bs ->
  li_len l + len vs < 2 ^ 64 -> f (li_data l ++ concat bs) = (s, Err e) ->
  write_items m (map (write_vec m x) vs ++ f :: rest) l = ({| li_data := s; li_len := li_len l + len vs |}, Err e).
Proof.
  intros m x vs bs f rest l s e H Hl Hf. rewrite write_items_app, (write_items_ok m x vs bs H l Hl).
  unfold write_items, write_item. cbn [li_data li_len]. rewrite Hf. reflexivity.
Qed.

Lemma mapM_indexed : forall E (f : nat -> bytes -> outcome E bytes) g cs k,
  (forall i c, nth_error cs i = Some c -> f (k + i)%nat c = Ok (g (k + i)%nat)) ->
  mapM (fun p => f (fst p) (snd p)) (combine (seq k (length cs)) cs) = Ok (map g (seq k (length cs))).
Proof.
  intros E f g cs. induction cs as [|c cs IH]; intros k H; cbn [length seq combine mapM map]; [reflexivity|].
  cbn [fst snd]. pose proof (H 0%nat c eq_refl) as H0. rewrite Nat.add_0_r in H0. rewrite H0. cbn [bind].
  rewrite (IH (S k)); [reflexivity|]. intros i c' Hc. replace (S k + i)%nat with (k + S i)%nat by lia. apply H. exact Hc.
Qed.

Lemma concat_window : forall (size : N) (ls : list bytes), Forall (fun c => len c = size) ls ->
  len (concat ls) = len ls * size /\
  forall i c, nth_error ls i = Some c ->
    window (concat ls) (N.of_nat i * size) ((N.of_nat i + 1) * size) = c.
Proof.
  intros size ls H. induction H as [|x ls Hx _ (IH1 & IH2)]; cbn [concat].
  - split; [reflexivity|]. intros [|] c Hc; discriminate Hc.
  - split.
    + rewrite len_app, IH1, Hx. unfold len. cbn [length]. lia.
    + intros [|i] c Hc; cbn [nth_error] in Hc.
      * injection Hc as <-. unfold window. rewrite N.mul_0_l. cbn [N.to_nat skipn].
        replace ((N.of_nat 0 + 1) * size - 0) with (len x) by lia. apply firstn_len_app.
      * rewrite <- (IH2 i c Hc). unfold window.
        replace ((N.of_nat (S i) + 1) * size - N.of_nat (S i) * size) with ((N.of_nat i + 1) * size - N.of_nat i * size) by lia.
        f_equal. rewrite skipn_app. unfold len in Hx. rewrite skipn_all2 by nia. cbn [app]. f_equal. nia.
Qed.

Theorem arr_items_mut_spec : forall E size data n (f : nat -> bytes -> outcome E bytes) g, 0 < size ->
  len data = n * size ->
  (forall i, i < n -> f (N.to_nat i) (window data (i * size) ((i + 1) * size)) = Ok (g i) /\ len (g i) = size) ->
  exists data', arr_items_mut size data f = Ok data' /\ len data' = len data /\
    forall i, i < n -> window data' (i * size) ((i + 1) * size) = g i.
Proof.
  intros E size data n f g Hs Hd Hf. destruct (arr_items_spec E size data n Hs Hd) as (ws & Hw & Hl & Hn).
  unfold arr_items_mut. unfold arr_items in Hw. rewrite Hw. cbn [bind].
  assert (M : mapM (fun p => f (fst p) (snd p)) (combine (seq 0 (length ws)) ws) =
    Ok (map (fun i => g (N.of_nat i)) (seq 0 (length ws)))).
  { apply mapM_indexed. intros i c Hc. cbn [Nat.add]. assert (Hi : N.of_nat i < n) by (rewrite <- Hl; unfold len; assert (i < length ws)%nat by (apply nth_error_Some; congruence); lia).
      specialize (Hn _ Hi). rewrite Nat2N.id in Hn. replace c with (window data (N.of_nat i * size) ((N.of_nat i + 1) * size)) by congruence.
      destruct (Hf _ Hi) as (F & _). rewrite Nat2N.id in F. exact F. }
  unfold bytes in *. rewrite M. cbn [bind]. eexists. split; [reflexivity|].
  assert (HF : Forall (fun c => len c = size) (map (fun i => g (N.of_nat i)) (seq 0 (length ws)))).
  { apply Forall_forall. intros c Hc. apply in_map_iff in Hc. destruct Hc as (i & <- & Hi). apply in_seq in Hi.
    apply Hf. rewrite <- Hl. unfold len. lia. }
  destruct (concat_window size _ HF) as (L & W). split.
  - rewrite L, Hd. f_equal. rewrite <- Hl. unfold len. rewrite map_length, seq_length. reflexivity.
  - intros i Hi. specialize (W (N.to_nat i) (g i)). rewrite N2Nat.id in W. apply W.
    rewrite nth_error_map. assert (Hlt : (N.to_nat i < length ws)%nat) by (unfold len in Hl; lia).
    rewrite (nth_error_nth' _ 0%nat) by (rewrite seq_length; exact Hlt). rewrite seq_nth by exact Hlt. cbn [option_map Nat.add].
    rewrite N2Nat.id. reflexivity.
Qed.
