(** Proofs about protocol descriptions (C59). *)

From Coq Require Import Arith NArith ZArith Ascii String List Bool Lia Permutation.
From Verif Require Import Base Schema Json SpecJson.
Import ListNotations.
Local Open Scope string_scope.

(** ** Members *)

Lemma values_none : forall k l, values k l = [] <-> ~ In k (map fst l).
Proof.
  unfold values. intros k l. induction l as [|(k' & x) l IH]; cbn [filter map fst In]; [tauto|].
  destruct (String.eqb_spec k' k) as [->|Hk]; cbn [map].
  - split; [discriminate|]. intro H. exfalso. apply H. auto.
  - rewrite IH. tauto.
Qed.

Lemma values_app : forall k l r, values k (l ++ r) = (values k l ++ values k r)%list.
Proof. intros k l r. unfold values. rewrite filter_app, map_app. reflexivity. Qed.

Lemma values_one : forall k l x, values k l = [x] <-> once l k x.
Proof.
  intros k l x. split.
  - induction l as [|(k' & y) l IH]; unfold values; cbn [filter map fst]; [discriminate|].
    destruct (String.eqb_spec k' k) as [->|Hk]; cbn [map snd]; intro H.
    + inversion H. exists [], l. split; [reflexivity|]. split; [tauto|]. apply values_none. assumption.
    + destruct (IH H) as (l1 & l2 & -> & A & B). exists ((k', y) :: l1), l2. split; [reflexivity|].
      split; [|assumption]. cbn. intros [C|C]; contradiction.
  - intros (l1 & l2 & -> & A & B). rewrite values_app. apply values_none in A, B. rewrite A.
    unfold values in *. cbn [filter fst]. rewrite String.eqb_refl. cbn [map snd]. rewrite B. reflexivity.
Qed.

Definition slot (j : json) (k : string) (i : nat) (o : option json) : Prop :=
  match o with Some x => has j k i x | None => lacks j k end.

Lemma member_slot : forall l k o, member_of l k = Some o <->
  match o with Some x => once l k x | None => ~ In k (map fst l) end.
Proof.
  intros l k [x|].
  - rewrite <- values_one. unfold member_of. destruct (values k l) as [|y [|z r]]; split; intro H; try discriminate;
      inversion H; reflexivity.
  - rewrite <- values_none. unfold member_of. destruct (values k l) as [|y [|z r]]; split; intro H; try discriminate;
      reflexivity.
Qed.

Lemma has_fun : forall j k i x y, has j k i x -> has j k i y -> x = y.
Proof.
  intros j k i x y. destruct j; cbn [has]; try contradiction.
  - congruence.
  - rewrite <- !values_one. congruence.
Qed.
Lemma has_lacks : forall j k i x, has j k i x -> lacks j k -> False.
Proof.
  intros j k i x. destruct j; cbn [has lacks]; try contradiction.
  rewrite <- values_one, <- values_none. congruence.
Qed.

Lemma map_all_ok : forall {A B} (f : A -> option B) l r, map_all f l = Some r <-> Forall2 (fun x y => f x = Some y) l r.
Proof.
  intros A B f l. induction l as [|x l IH]; intro r; cbn [map_all].
  - split; [intro H; inversion H; constructor|intro H; inversion H; reflexivity].
  - split.
    + destruct (f x) as [y|] eqn:E; [|discriminate]. destruct (map_all f l) as [ys|] eqn:E2; [|discriminate].
      intro H. inversion H; subst. constructor; [assumption|]. apply IH. reflexivity.
    + intro H. inversion H; subst. rewrite H2. apply IH in H4. rewrite H4. reflexivity.
Qed.
Lemma map_all_total : forall {A B} (f : A -> option B) l,
  (forall x, In x l -> exists y, f x = Some y) -> exists r, map_all f l = Some r.
Proof.
  intros A B f l. induction l as [|x l IH]; intro H; cbn [map_all]; [eauto|].
  destruct (H x) as (y & ->); [left; reflexivity|]. destruct IH as (r & ->); [intros; apply H; right; assumption|]. eauto.
Qed.

Definition written (exact : bool) (n : nat) (j : json) : Prop :=
  match j with JObject _ => True | JArray l => if exact then length l = n else n <= length l | _ => False end.

Lemma firstn_nth : forall {A} n (l : list A) i, i < n -> nth_error (firstn n l) i = nth_error l i.
Proof.
  induction n as [|n IH]; intros l i H; [lia|]. destruct l as [|x l]; destruct i as [|i]; cbn; try reflexivity.
  apply IH. lia.
Qed.

(** The members [os] under the keys [keys], numbered from [i]. *)
Fixpoint slots (j : json) (i : nat) (keys : list string) (os : list (option json)) : Prop :=
  match keys, os with
  | [], [] => True
  | k :: keys, o :: os => slot j k i o /\ slots j (S i) keys os
  | _, _ => False
  end.

Lemma slots_object : forall l keys i os, slots (JObject l) i keys os <-> Forall2 (fun k o => member_of l k = Some o) keys os.
Proof.
  intros l keys. induction keys as [|k keys IH]; intros i [|o os]; cbn [slots].
  - split; [constructor|trivial].
  - split; [contradiction|intro H; inversion H].
  - split; [contradiction|intro H; inversion H].
  - rewrite (IH (S i)). split.
    + intros (A & B). constructor; [|assumption]. apply member_slot. destruct o; exact A.
    + intro H. inversion H; subst. split; [|assumption]. apply member_slot in H3. destruct o; exact H3.
Qed.

Lemma slots_array : forall l keys i os, i + length keys <= length l ->
  (slots (JArray l) i keys os <-> os = map Some (firstn (length keys) (skipn i l))).
Proof.
  intros l keys. induction keys as [|k keys IH]; intros i os Hl; cbn [slots length firstn].
  - destruct os; cbn; split; intro H; (reflexivity || trivial || discriminate || contradiction).
  - cbn [length] in Hl. destruct (nth_error l i) as [x|] eqn:Ex; [|apply nth_error_None in Ex; lia].
    assert (Hsk : skipn i l = x :: skipn (S i) l).
    { clear -Ex. revert l Ex. induction i as [|i IH]; intros [|y l] H; try discriminate; cbn in *.
      - inversion H; reflexivity.
      - apply IH. assumption. }
    rewrite Hsk. cbn [map]. destruct os as [|o os]; [split; [contradiction|discriminate]|].
    rewrite (IH (S i)) by lia. split.
    + intros (A & ->). destruct o as [y|]; cbn in A; [|contradiction]. congruence.
    + intro H. inversion H; subst. split; [exact Ex|reflexivity].
Qed.

Lemma record_slots : forall exact keys j os, record exact keys j = Some os <->
  written exact (length keys) j /\ slots j 0 keys os.
Proof.
  intros exact keys j os. destruct j; cbn [record written]; try (split; [discriminate|intros ([] & _)]).
  - split.
    + destruct (if exact then _ else _) eqn:E; [|discriminate]. intro H. inversion H; subst os; clear H.
      assert (Hn : if exact then length l = length keys else length keys <= length l)
        by (destruct exact; [apply Nat.eqb_eq in E|apply Nat.leb_le in E]; assumption).
      split; [assumption|]. apply slots_array; [destruct exact; lia|reflexivity].
    + intros (Hn & H). replace (if exact then _ else _) with true
        by (symmetry; destruct exact; [apply Nat.eqb_eq|apply Nat.leb_le]; assumption).
      apply slots_array in H; [|destruct exact; lia]. rewrite H. reflexivity.
  - rewrite slots_object, map_all_ok. tauto.
Qed.

(** ** Tagged structures *)

Definition rest (j : json) : json :=
  match j with
  | JObject l => JObject (filter (fun kv => negb (String.eqb (fst kv) "type")) l)
  | JArray (_ :: r) => JArray r
  | _ => j
  end.

Lemma values_rest : forall k l, k <> "type" ->
  values k (filter (fun kv => negb (String.eqb (fst kv) "type")) l) = values k l.
Proof.
  intros k l Hk. unfold values. induction l as [|(k' & x) l IH]; [reflexivity|]. cbn [filter fst].
  destruct (String.eqb_spec k' "type") as [->|Hn]; cbn [negb filter fst].
  - destruct (String.eqb_spec "type" k) as [Hc|_]; [congruence|exact IH].
  - destruct (String.eqb k' k); cbn [map]; rewrite IH; reflexivity.
Qed.

Lemma slot_rest : forall j k i o n t, k <> "type" -> is_variant t n j ->
  (slot (rest j) k i o <-> slot j k (S i) o).
Proof.
  intros j k i o n t Hk Hv. destruct j; cbn [is_variant] in Hv; try contradiction.
  - destruct Hv as (Hv & Hl). destruct l as [|y r]; [discriminate|]. destruct o; cbn; tauto.
  - destruct o as [x|]; cbn [slot has lacks rest].
    + rewrite <- !values_one, values_rest by assumption. tauto.
    + rewrite <- !values_none, values_rest by assumption. tauto.
Qed.

Lemma tagged_ok : forall j t c, tagged j = Some (t, c) -> c = rest j /\
  forall n, written true n c -> is_variant t n j.
Proof.
  intros j t c H. destruct j; cbn [tagged] in H; try discriminate.
  - destruct l as [|[] r]; try discriminate. inversion H; subst. split; [reflexivity|].
    intros n Hn. cbn in *. split; [reflexivity|]. rewrite Hn. reflexivity.
  - destruct (values "type" l) as [|[] [|]] eqn:E; try discriminate. inversion H; subst. split; [reflexivity|].
    intros n _. cbn. apply values_one. assumption.
Qed.
Lemma tagged_variant : forall j t n, is_variant t n j -> tagged j = Some (t, rest j) /\ written true n (rest j).
Proof.
  intros j t n H. destruct j; cbn [is_variant] in H; try contradiction.
  - destruct H as (H & Hl). destruct l as [|y r]; [discriminate|]. cbn in H. inversion H; subst. cbn in *.
    split; [reflexivity|]. lia.
  - cbn [tagged rest written]. apply values_one in H. rewrite H. split; [reflexivity|exact I].
Qed.

Lemma slots_rest : forall j keys i os n t, ~ In "type" keys -> is_variant t n j ->
  (slots (rest j) i keys os <-> slots j (S i) keys os).
Proof.
  intros j keys. induction keys as [|k keys IH]; intros i os n t Hk Hv; cbn [slots].
  - destruct os; tauto.
  - destruct os as [|o os]; [tauto|]. cbn in Hk.
    rewrite (slot_rest j k i o n t) by (try assumption; intros ->; apply Hk; auto).
    rewrite (IH (S i) os n t) by (try assumption; intro Hc; apply Hk; auto). tauto.
Qed.

Lemma variant_slots : forall j t keys os, ~ In "type" keys ->
  ((exists c, tagged j = Some (t, c) /\ record true keys c = Some os) <->
   is_variant t (length keys) j /\ slots j 1 keys os).
Proof.
  intros j t keys os Hk. split.
  - intros (c & Ht & H). apply tagged_ok in Ht. destruct Ht as (-> & Hv). apply record_slots in H.
    destruct H as (Hw & Hs). specialize (Hv _ Hw). split; [assumption|].
    eapply slots_rest in Hs; eassumption.
  - intros (Hv & Hs). destruct (tagged_variant _ _ _ Hv) as (A & B). exists (rest j). split; [assumption|].
    apply record_slots. split; [assumption|]. eapply slots_rest; eassumption.
Qed.

(** ** Reading a value and describing it *)

Definition good {A} (de : json -> option A) (P : json -> A -> Prop) : Prop :=
  (forall x v, de x = Some v -> P x v) /\ (forall x v, P x v -> exists v', de x = Some v').

Lemma good_string : good de_string is_string.
Proof. split; intros [] v H; try discriminate; cbn in *; inversion H; try reflexivity; eexists; reflexivity. Qed.
Lemma good_bool : good de_bool is_bool.
Proof. split; intros [] v H; try discriminate; cbn in *; inversion H; try reflexivity; eexists; reflexivity. Qed.
Lemma good_size : good content_usize is_size.
Proof.
  split.
  - intros [] v H; try discriminate. cbn in H. destruct (in_i64 z && Z.leb 0 z)%bool eqn:E; [|discriminate].
    apply andb_true_iff in E. destruct E as (E1 & E2). unfold in_i64 in E1. apply andb_true_iff in E1.
    destruct E1 as (_ & E1). apply Z.ltb_lt in E1. apply Z.leb_le in E2. inversion H; subst.
    split; [rewrite Z2N.id by assumption; reflexivity|]. change (2 ^ 63)%N with (Z.to_N (2 ^ 63)). lia.
  - intros x n (-> & Hn). exists n. cbn. unfold in_i64.
    assert ((- 2 ^ 63 <=? Z.of_N n)%Z = true) as -> by (apply Z.leb_le; lia).
    assert ((Z.of_N n <? 2 ^ 63)%Z = true) as ->
      by (apply Z.ltb_lt; change (2 ^ 63)%Z with (Z.of_N (2 ^ 63)); lia).
    assert ((0 <=? Z.of_N n)%Z = true) as -> by (apply Z.leb_le; lia).
    cbn [andb]. rewrite N2Z.id. reflexivity.
Qed.
Lemma good_real : good content_f64 is_real.
Proof.
  split.
  - intros [] v H; try discriminate; cbn in H.
    + destruct (in_i64 z) eqn:E; [|discriminate]. inversion H. right. exists z. split; [reflexivity|].
      split; [|reflexivity]. unfold in_i64 in E. apply andb_true_iff in E. destruct E as (A & B).
      apply Z.leb_le in A. apply Z.ltb_lt in B. lia.
    + inversion H. left. reflexivity.
  - intros x v [->|(z & -> & Hz & ->)]; [eexists; reflexivity|]. exists (f64_of_Z z). cbn. unfold in_i64.
    assert ((- 2 ^ 63 <=? z)%Z = true) as -> by (apply Z.leb_le; lia).
    assert ((z <? 2 ^ 63)%Z = true) as -> by (apply Z.ltb_lt; lia). reflexivity.
Qed.
Lemma good_vec : forall {A} (de : json -> option A) P, good de P -> good (de_vec de) (listed P).
Proof.
  intros A de P (Hs & Hc). split.
  - intros [] v H; try discriminate. cbn in H. apply map_all_ok in H. exists l. split; [reflexivity|].
    induction H; constructor; auto.
  - intros x v (xs & -> & H). cbn. apply map_all_total. induction H; intros z Hz; [destruct Hz|destruct Hz as [<-|Hz]; eauto].
Qed.

Lemma required_sound : forall {A} (de : json -> option A) P j k i o v, good de P -> slot j k i o ->
  required de o = Some v -> req P j k i v.
Proof. intros A de P j k i [x|] v (Hs & _) Ho H; [|discriminate]. exists x. split; [exact Ho|]. apply Hs. exact H. Qed.
Lemma required_total : forall {A} (de : json -> option A) P j k i o v, good de P -> slot j k i o ->
  req P j k i v -> exists v', required de o = Some v'.
Proof.
  intros A de P j k i [x|] v (_ & Hc) Ho (y & Hy & HP).
  - cbn in Ho. rewrite (has_fun _ _ _ _ _ Ho Hy). eapply Hc. exact HP.
  - exfalso. eapply has_lacks; eassumption.
Qed.
Lemma optional_sound : forall {A} (de : json -> option A) P j k i o v, good de P -> slot j k i o ->
  optional de o = Some v -> opt P j k i v.
Proof.
  intros A de P j k i [x|] v (Hs & _) Ho H.
  - assert (Hx : x = JNull \/ x <> JNull) by (destruct x; (left; reflexivity) || (right; discriminate)).
    destruct Hx as [->|Hx].
    + cbn in H. inversion H. right. exact Ho.
    + assert (H' : option_map Some (de x) = Some v) by (destruct x; try exact H; contradiction).
      destruct (de x) as [y|] eqn:E; [|discriminate]. inversion H'; subst. exists x. split; [exact Ho|].
      split; [assumption|]. apply Hs. assumption.
  - cbn in H. inversion H. left. exact Ho.
Qed.
Lemma optional_total : forall {A} (de : json -> option A) P j k i o v, good de P -> slot j k i o ->
  opt P j k i v -> exists v', optional de o = Some v'.
Proof.
  intros A de P j k i o v (_ & Hc) Ho Hv. destruct o as [x|]; [|cbn; eauto].
  assert (Hx : x = JNull \/ x <> JNull) by (destruct x; (left; reflexivity) || (right; discriminate)).
  destruct Hx as [->|Hx]; [cbn; eauto|].
  destruct v as [v|].
  - destruct Hv as (y & Hy & _ & HP). rewrite (has_fun _ _ _ _ _ Ho Hy) in *. destruct (Hc _ _ HP) as (v' & E).
    exists (Some v'). destruct y; cbn; rewrite ?E; try reflexivity; contradiction.
  - destruct Hv as [Hl|Hn]; [exfalso; eapply has_lacks; eassumption|].
    exfalso. apply Hx. eapply has_fun; eassumption.
Qed.

Lemma req_slot : forall {A} (P : json -> A -> Prop) j k i v, req P j k i v -> exists o, slot j k i o.
Proof. intros A P j k i v (x & H & _). exists (Some x). exact H. Qed.
Lemma opt_slot : forall {A} (P : json -> A -> Prop) j k i v, opt P j k i v -> exists o, slot j k i o.
Proof.
  intros A P j k i [v|]; cbn.
  - intros (x & H & _). exists (Some x). exact H.
  - intros [H|H]; [exists None|exists (Some JNull)]; exact H.
Qed.

(** ** The descriptions *)

Ltac explode :=
  repeat match goal with
  | H : slots ?j ?i (?k :: ?ks) ?os |- _ =>
      let o := fresh "o" in let os' := fresh "os" in
      destruct os as [|o os']; [contradiction H|];
      change (slot j k i o /\ slots j (S i) ks os') in H; destruct H as (? & H)
  | H : slots _ _ [] ?os |- _ => destruct os; [clear H|contradiction H]
  end.
Ltac matches :=
  repeat match goal with
  | H : match ?x with _ => _ end = Some _ |- _ => destruct x eqn:?; try discriminate H
  end.
(** [de_X j = Some v -> is_X j v] for a structure read by [record]. *)
Ltac sound_record :=
  match goal with
  | H : context[record ?e ?k ?j] |- _ =>
      let E := fresh "E" in destruct (record e k j) eqn:E; [|discriminate H];
      apply record_slots in E; destruct E as (Hw & Hs); explode
  end; matches;
  match goal with H : Some _ = Some _ |- _ => injection H; clear H; intros; subst end.
Ltac slot_of H := first [destruct (req_slot _ _ _ _ _ H) as (? & ?)|destruct (opt_slot _ _ _ _ _ H) as (? & ?)].

Ltac total_record keys os :=
  match goal with
  | Hw : structured _ ?j |- _ =>
      assert (R : record false keys j = Some os)
        by (apply record_slots; split; [exact Hw|cbn [slots]; tauto]);
      rewrite R; clear R
  end.
Ltac read_member :=
  match goal with
  | |- context[required ?de ?o] =>
      match goal with
      | S : slot ?j ?k ?i o, Q : req ?P ?j ?k ?i ?v |- _ =>
          destruct (required_total de P j k i o v ltac:(auto with good) S Q) as (? & ->)
      end
  | |- context[optional ?de ?o] =>
      match goal with
      | S : slot ?j ?k ?i o, Q : opt ?P ?j ?k ?i ?v |- _ =>
          destruct (optional_total de P j k i o v ltac:(auto with good) S Q) as (? & ->)
      end
  end.
Ltac sound_member := first [eapply required_sound; [|eassumption|eassumption]; auto with good
                           |eapply optional_sound; [|eassumption|eassumption]; auto with good].
#[local] Hint Resolve good_string good_bool good_size good_real good_vec : good.

Lemma good_import : good de_import is_import.
Proof.
  split.
  - intros j v H. unfold de_import in H. sound_record. split; [exact Hw|]. split; sound_member.
  - intros j v (Hw & A & B). slot_of A. slot_of B. unfold de_import.
    total_record ["protocol"; "type"] [x; x0]. repeat read_member. eauto.
Qed.

Lemma good_endianness : good de_endianness is_endianness.
Proof.
  split.
  - intros [] v H; try discriminate. cbn in H. destruct (String.eqb_spec s "little") as [->|].
    { inversion H. reflexivity. }
    destruct (String.eqb_spec s "big") as [->|]; [|discriminate]. inversion H. reflexivity.
  - intros j v ->. exists v. destruct v; reflexivity.
Qed.

Lemma good_case : good de_case is_case.
Proof.
  split.
  - intros j v H. unfold de_case in H. sound_record. split; [exact Hw|]. split; [|split]; sound_member.
  - intros j v (Hw & A & B & C). slot_of A. slot_of B. slot_of C. unfold de_case.
    total_record ["name"; "case"; "item_type"] [x; x0; x1]. repeat read_member. eauto.
Qed.
#[local] Hint Resolve good_case good_import good_endianness : good.

Lemma good_union : good de_union is_union.
Proof.
  split.
  - intros j v H. unfold de_union in H. sound_record. split; [exact Hw|]. split; [|split]; sound_member.
  - intros j v (Hw & A & B & C). slot_of A. slot_of B. slot_of C. unfold de_union.
    total_record ["name"; "discriminant"; "cases"] [x; x0; x1]. repeat read_member. eauto.
Qed.

(** Tagged structures. *)
Lemma variant_record : forall j t c keys, tagged j = Some (t, c) -> ~ In "type" keys ->
  forall os, record true keys c = Some os -> is_variant t (length keys) j /\ slots j 1 keys os.
Proof. intros j t c keys Ht Hk os H. apply variant_slots; [assumption|]. eauto. Qed.

Ltac sound_variant :=
  match goal with
  | T : tagged ?j = Some (?t, ?c), H : context[record true ?k ?c] |- _ =>
      let E := fresh "E" in destruct (record true k c) eqn:E; [|discriminate H];
      apply (variant_record j t c k T) in E; [|cbn; intuition discriminate];
      destruct E as (Hv & Hs); explode
  end; unfold option_map in *; matches;
  match goal with H : Some _ = Some _ |- _ => injection H; clear H; intros; subst end.
Ltac total_variant keys os :=
  match goal with
  | Hv : is_variant ?t _ ?j |- _ =>
      let c := fresh "c" in let T := fresh "T" in let R := fresh "R" in
      destruct (proj2 (variant_slots j t keys os ltac:(cbn; intuition discriminate))) as (c & T & R);
      [split; [exact Hv|cbn [slots]; tauto]|]; rewrite T; cbn [String.eqb Ascii.eqb Bool.eqb]; rewrite R
  end.

Lemma good_view : good de_view is_view.
Proof.
  split.
  - intros j v H. unfold de_view in H. destruct (tagged j) as [(t & c)|] eqn:T; [|discriminate].
    destruct (String.eqb_spec t "enum") as [->|_].
    { sound_variant. split; [exact Hv|]. sound_member. }
    destruct (String.eqb_spec t "float-range") as [->|_].
    { sound_variant. split; [exact Hv|]. split; sound_member. }
    destruct (String.eqb_spec t "float-multiplier") as [->|_]; [|discriminate].
    sound_variant. split; [exact Hv|]. sound_member.
  - intros j [n|a b|a] H; cbn [is_view] in H; unfold de_view.
    + destruct H as (Hv & A). slot_of A. total_variant ["name"] [x]. read_member. eexists. reflexivity.
    + destruct H as (Hv & A & B). slot_of A. slot_of B. total_variant ["min"; "max"] [x; x0]. repeat read_member.
      eexists. reflexivity.
    + destruct H as (Hv & A). slot_of A. total_variant ["multiplier"] [x]. read_member. eexists. reflexivity.
Qed.

Lemma good_info : good de_info is_info.
Proof.
  split.
  - intros j v H. unfold de_info in H. destruct (tagged j) as [(t & c)|] eqn:T; [|discriminate].
    destruct (String.eqb_spec t "signed") as [->|_]; [sound_variant; split; [exact Hv|sound_member]|].
    destruct (String.eqb_spec t "unsigned") as [->|_]; [sound_variant; split; [exact Hv|sound_member]|].
    destruct (String.eqb_spec t "float") as [->|_]; [sound_variant; split; [exact Hv|sound_member]|].
    destruct (String.eqb_spec t "boolean") as [->|_]; [sound_variant; split; [exact Hv|sound_member]|].
    destruct (String.eqb_spec t "struct") as [->|_]; [|discriminate]. sound_variant; split; [exact Hv|sound_member].
  - intros j [n|n|n|n|n] H; cbn [is_info] in H; unfold de_info; destruct H as (Hv & A); slot_of A;
      [total_variant ["bits"] [x]|total_variant ["bits"] [x]|total_variant ["bits"] [x]|total_variant ["bits"] [x]
      |total_variant ["item_type"] [x]]; read_member; eexists; reflexivity.
Qed.

Lemma good_minfo : good de_minfo is_minfo.
Proof.
  split.
  - intros j v H. unfold de_minfo in H. destruct (tagged j) as [(t & c)|] eqn:T; [|discriminate].
    destruct (String.eqb_spec t "item") as [->|_]; [sound_variant; split; [exact Hv|sound_member]|].
    destruct (String.eqb_spec t "list") as [->|_]; [sound_variant; split; [exact Hv|split; sound_member]|].
    destruct (String.eqb_spec t "string") as [->|_]; [sound_variant; split; [exact Hv|sound_member]|].
    destruct (String.eqb_spec t "payload") as [->|_]; [sound_variant; exact Hv|].
    destruct (String.eqb_spec t "union") as [->|_]; [|discriminate].
    sound_variant; split; [exact Hv|split; sound_member].
  - intros j [n|n t|n| |o t] H; cbn [is_minfo] in H; unfold de_minfo.
    + destruct H as (Hv & A). slot_of A. total_variant ["item_type"] [x]. read_member. eexists. reflexivity.
    + destruct H as (Hv & A & B). slot_of A. slot_of B. total_variant ["max_len"; "item_type"] [x; x0].
      repeat read_member. eexists. reflexivity.
    + destruct H as (Hv & A). slot_of A. total_variant ["max_len"] [x]. read_member. eexists. reflexivity.
    + rename H into Hv. total_variant (@nil string) (@nil (option json)). eexists. reflexivity.
    + destruct H as (Hv & A & B). slot_of A. slot_of B. total_variant ["on"; "item_type"] [x; x0].
      repeat read_member. eexists. reflexivity.
Qed.
#[local] Hint Resolve good_view good_info good_minfo good_union : good.

Lemma good_mfield : good de_mfield is_mfield.
Proof.
  split.
  - intros j v H. unfold de_mfield in H. sound_record. split; [exact Hw|]. split; [|split]; sound_member.
  - intros j v (Hw & A & B & C). slot_of A. slot_of B. slot_of C. unfold de_mfield.
    total_record ["name"; "info"; "optional"] [x; x0; x1]. repeat read_member. eauto.
Qed.
#[local] Hint Resolve good_mfield : good.
Lemma good_message : good de_message is_message.
Proof.
  split.
  - intros j v H. unfold de_message in H. sound_record. split; [exact Hw|]. split; sound_member.
  - intros j v (Hw & A & B). slot_of A. slot_of B. unfold de_message.
    total_record ["name"; "fields"] [x; x0]. repeat read_member. eauto.
Qed.

Section Numbers.
Variable num : json -> option N.
Variable hash_order : list (string * N) -> list (string * N).
Hypothesis hash_perm : forall l, Permutation (hash_order l) l.

Lemma good_num : good num (is_num num).
Proof. split; [auto|]. intros x v H. exists v. exact H. Qed.
#[local] Hint Resolve good_num : good.

Lemma good_field : good (de_field num) (is_field num).
Proof.
  split.
  - intros j v H. unfold de_field in H. sound_record. split; [exact Hw|]. split; [|split; [|split]]; sound_member.
  - intros j v (Hw & A & B & C & D). slot_of A. slot_of B. slot_of C. slot_of D. unfold de_field.
    total_record ["name"; "info"; "view"; "array_len"] [x; x0; x1; x2]. repeat read_member. eauto.
Qed.
#[local] Hint Resolve good_field : good.
Lemma good_struct : good (de_struct num) (is_struct num).
Proof.
  split.
  - intros j v H. unfold de_struct in H. sound_record. split; [exact Hw|]. split; sound_member.
  - intros j v (Hw & A & B). slot_of A. slot_of B. unfold de_struct.
    total_record ["name"; "fields"] [x; x0]. repeat read_member. eauto.
Qed.

(** Inserting the entries one after the other. *)
Definition put (m : list (string * N)) (kv : string * N) : list (string * N) :=
  (filter (fun x => negb (String.eqb (fst x) (fst kv))) m ++ [kv])%list.

Lemma put_in : forall m kv k n, In (k, n) (put m kv) <-> ((k, n) = kv \/ (k <> fst kv /\ In (k, n) m)).
Proof.
  intros m (k' & n') k n. unfold put. rewrite in_app_iff, filter_In. cbn [fst In].
  destruct (String.eqb_spec k k') as [->|Hk]; cbn [negb].
  - split; [intros [(_ & H)|[H|[]]]; [discriminate|left; congruence]|].
    intros [H|(H & _)]; [|contradiction]. right. left. congruence.
  - split; [intros [(H & _)|[H|[]]]; [auto|left; congruence]|].
    intros [H|(H & Hin)]; [right; left; congruence|auto].
Qed.
Lemma put_nodup : forall m kv, NoDup (map fst m) -> NoDup (map fst (put m kv)).
Proof.
  intros m (k & n) H. unfold put. rewrite map_app. cbn [map fst].
  apply (Permutation_NoDup (Permutation_cons_append _ k)). constructor.
  - intro Hc. apply in_map_iff in Hc. destruct Hc as ((k1 & n1) & Hk & Hin). cbn in Hk. subst.
    apply filter_In in Hin. destruct Hin as (_ & Hin). cbn in Hin. rewrite String.eqb_refl in Hin. discriminate.
  - clear -H. induction m as [|(k1 & n1) m IH]; cbn in *; [constructor|]. inversion H; subst.
    destruct (negb (String.eqb k1 k)); cbn; [|auto]. constructor; [|auto].
    intro Hc. apply H2. apply in_map_iff in Hc. destruct Hc as (y & Hy & Hin). apply filter_In in Hin.
    apply in_map_iff. exists y. tauto.
Qed.

Lemma last_app : forall (l : list (string * json)) kx k n,
  (exists l1 x l2, (l ++ [kx])%list = (l1 ++ (k, x) :: l2)%list /\ ~ In k (map fst l2) /\ num x = Some n) <->
  ((k = fst kx /\ num (snd kx) = Some n) \/
   (k <> fst kx /\ exists l1 x l2, l = (l1 ++ (k, x) :: l2)%list /\ ~ In k (map fst l2) /\ num x = Some n)).
Proof.
  intros l (k' & x') k n. cbn [fst snd]. split.
  - intros (l1 & x & l2 & He & Hn & Hx). destruct l2 as [|z l2 _] using rev_ind.
    + apply app_inj_tail in He. destruct He as (-> & He). inversion He; subst. auto.
    + rewrite app_comm_cons, app_assoc in He. apply app_inj_tail in He. destruct He as (-> & <-).
      rewrite map_app, in_app_iff in Hn. cbn in Hn. right. split; [intros ->; tauto|].
      exists l1, x, l2. tauto.
  - intros [(-> & Hx)|(Hk & l1 & x & l2 & -> & Hn & Hx)].
    + exists l, x', []. auto.
    + exists l1, x, (l2 ++ [(k', x')])%list. split; [rewrite <- app_assoc; reflexivity|]. split; [|assumption].
      rewrite map_app, in_app_iff. cbn. intuition congruence.
Qed.

Lemma puts_spec : forall l kvs,
  Forall2 (fun kx kv => option_map (fun n => (fst kx, n)) (num (snd kx)) = Some kv) l kvs ->
  NoDup (map fst (fold_left put kvs [])) /\
  forall k n, In (k, n) (fold_left put kvs []) <->
    exists l1 x l2, l = (l1 ++ (k, x) :: l2)%list /\ ~ In k (map fst l2) /\ num x = Some n.
Proof.
  intros l. induction l as [|kx l IH] using rev_ind; intros kvs H.
  - inversion H; subst. cbn. split; [constructor|]. intros k n. split; [contradiction|].
    intros ([|? ?] & x & l2 & He & _); discriminate.
  - apply Forall2_app_inv_l in H. destruct H as (k1 & k2 & H1 & H2 & ->). inversion H2; subst. inversion H5; subst.
    destruct (IH _ H1) as (A & B). rewrite fold_left_app. cbn [fold_left]. split; [apply put_nodup; assumption|].
    intros k n. rewrite put_in, last_app, B. unfold option_map in H3.
    destruct (num (snd kx)) as [n0|] eqn:En; [|discriminate]. inversion H3; subst. cbn [fst].
    split.
    + intros [He|He]; [inversion He; subst; auto|auto].
    + intros [(-> & He)|He]; [inversion He; subst; auto|auto].
Qed.

Lemma good_variants : good (de_variants num hash_order) (is_variants num).
Proof.
  split.
  - intros [] v H; try discriminate. cbn in H.
    destruct (map_all _ l) as [kvs|] eqn:E; [|discriminate]. injection H as <-. apply map_all_ok in E.
    exists l. split; [reflexivity|]. split.
    { clear -E. induction E as [|kx kv l kvs H E IH]; constructor; [|assumption].
      unfold option_map in H. unfold is_num. destruct (num (snd kx)); [eauto|discriminate]. }
    destruct (puts_spec _ _ E) as (A & B). pose proof (hash_perm (fold_left put kvs [])) as Hp. split.
    + eapply Permutation_NoDup; [|exact A]. apply Permutation_map. symmetry. exact Hp.
    + intros k n. transitivity (In (k, n) (fold_left put kvs [])); [|apply B].
      split; apply Permutation_in; [exact Hp|symmetry; exact Hp].
  - intros x v (l & -> & Hl & _). cbn.
    destruct (map_all_total (fun kv => option_map (fun n => (fst kv, n)) (num (snd kv))) l) as (kvs & ->); [|eauto].
    intros kx Hx. rewrite Forall_forall in Hl. destruct (Hl _ Hx) as (n & Hn). unfold is_num in Hn. rewrite Hn. cbn. eauto.
Qed.
#[local] Hint Resolve good_variants : good.

Lemma good_enum : good (de_enum num hash_order) (is_enum num).
Proof.
  split.
  - intros j v H. unfold de_enum in H. sound_record. split; [exact Hw|]. split; sound_member.
  - intros j v (Hw & A & B). slot_of A. slot_of B. unfold de_enum.
    total_record ["name"; "variants"] [x; x0]. repeat read_member. eauto.
Qed.
#[local] Hint Resolve good_struct good_enum good_message : good.

(** Lists that may be left out. *)
Lemma list_sound : forall {A} (de : json -> option A) P j k i o v, good de P -> slot j k i o ->
  optional (de_vec de) o = Some v -> opt_list P j k i (or_empty v).
Proof.
  intros A de P j k i o v Hg Ho H. pose proof (optional_sound _ _ _ _ _ _ _ (good_vec _ _ Hg) Ho H) as G.
  destruct v as [l|]; cbn in G; unfold opt_list, or_empty.
  - destruct G as (x & Hx & _ & xs & -> & HF). left. exists xs. auto.
  - right. auto.
Qed.
Lemma list_opt : forall {A} (P : json -> A -> Prop) j k i l, opt_list P j k i l -> exists v, opt (listed P) j k i v.
Proof.
  intros A P j k i l [(x & Hx & HF)|(-> & H)].
  - exists (Some l). exists (JArray x). split; [assumption|]. split; [discriminate|]. exists x. auto.
  - exists None. exact H.
Qed.

Lemma good_protocol : good (de_protocol num hash_order) (is_protocol num).
Proof.
  split.
  - intros j v H. unfold de_protocol in H. sound_record. split; [exact Hw|].
    cbn [sp_name sp_endianness sp_imports sp_structs sp_messages sp_enums sp_unions].
    split; [sound_member|]. split; [sound_member|].
    repeat split; (eapply list_sound; [|eassumption|eassumption]; auto with good).
  - intros j v (Hw & A & B & C & D & E & F & G).
    apply list_opt in C, D, E, F, G. destruct C as (vc & C), D as (vd & D), E as (ve & E), F as (vf & F), G as (vg & G).
    slot_of A. slot_of B. slot_of C. slot_of D. slot_of E. slot_of F. slot_of G. unfold de_protocol.
    total_record ["name"; "endianness"; "imports"; "structs"; "messages"; "enums"; "unions"] [x; x0; x1; x2; x3; x4; x5].
    repeat read_member. eauto.
Qed.
End Numbers.
