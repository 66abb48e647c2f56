(** C92: fields of a structure that are put into a structure of their own. The theorems. *)

From Coq Require Import Arith NArith ZArith Ascii String List Bool Lia ZifyBool ZifyN ZifyNat.
From Verif Require Import Base Schema Codec Compiler Access SpecStruct StructFacts StructThms NestedThms NestedExact ItemsThms EvolveThms SpecNest NestThms NestRun.
Import ListNotations.
Local Open Scope N_scope.
Local Open Scope list_scope.
Ltac Zify.zify_post_hook ::= idtac.

Theorem nest_accepted : forall m endi enums structs before members after grp outer flat, nested before members after grp outer flat ->
  (forall t, declared_total structs (ss_fields flat) = Some t -> t < 2 ^ 64) ->
  forall i j k, (exists z, structure_from_model m endi enums structs k flat = Ok z) <->
    (exists g x, structure_from_model m endi enums structs i grp = Ok g /\
       structure_from_model m endi enums (sinsert (ss_name grp) g structs) j outer = Ok x).
Proof.
  intros m endi enums structs before members after grp outer flat Hn Hf i j k. split.
  - intros (z & Hz). destruct (nest_shape_flat m endi enums structs before members after grp outer flat Hn Hf i j k z Hz) as (g & x & B & fb & fa & nm & Hg & Hx & _).
    exists g, x. auto.
  - intros (g & x & Hg & Hx). eapply nest_flat; eassumption.
Qed.

Lemma nest_all : forall m endi enums structs before members after grp outer flat, nested before members after grp outer flat ->
  (forall t, declared_total structs (ss_fields flat) = Some t -> t < 2 ^ 64) ->
  forall i j k g x z, structure_from_model m endi enums structs i grp = Ok g ->
  structure_from_model m endi enums (sinsert (ss_name grp) g structs) j outer = Ok x -> structure_from_model m endi enums structs k flat = Ok z ->
  exists B fb fa nm, nest_shape structs before members grp outer flat g x z B fb fa nm.
Proof.
  intros m endi enums structs before members after grp outer flat Hn Hf i j k g x z Hg Hx Hz.
  destruct (nest_shape_flat m endi enums structs before members after grp outer flat Hn Hf i j k z Hz) as (g' & x' & B & fb & fa & nm & Hg' & Hx' & H).
  rewrite Hg in Hg'. injection Hg' as <-. rewrite Hx in Hx'. injection Hx' as <-. exists B, fb, fa, nm. exact H.
Qed.

Theorem nest_layout : forall m endi enums structs before members after grp outer flat, nested before members after grp outer flat ->
  (forall t, declared_total structs (ss_fields flat) = Some t -> t < 2 ^ 64) ->
  forall i j k g x z, structure_from_model m endi enums structs i grp = Ok g ->
  structure_from_model m endi enums (sinsert (ss_name grp) g structs) j outer = Ok x -> structure_from_model m endi enums structs k flat = Ok z ->
  s_name z = s_name x /\ s_bit_size z = s_bit_size x /\ s_byte_size z = s_byte_size x /\
  (forall path o w, path_at x path o w -> path_at z (flat_path (length before) (length members) path) o w) /\
  (forall path o w, path_at z path o w -> exists path', path_at x path' o w /\ path = flat_path (length before) (length members) path').
Proof.
  intros m endi enums structs before members after grp outer flat Hn Hf i j k g x z Hg Hx Hz.
  destruct (nest_all m endi enums structs before members after grp outer flat Hn Hf i j k g x z Hg Hx Hz) as (B & fb & fa & nm & H).
  split; [|split; [exact (ns_bits _ _ _ _ _ _ _ _ _ _ _ _ _ H)|split; [exact (ns_bytes _ _ _ _ _ _ _ _ _ _ _ _ _ H)|split]]].
  - destruct Hn as (_ & _ & _ & E4 & _). unfold structure_from_model in Hx, Hz.
    apply bind_ok in Hx. destruct Hx as ((? & ?) & _ & K). injection K as <-. apply bind_ok in Hz. destruct Hz as ((? & ?) & _ & K). injection K as <-. exact E4.
  - intros path o w Hp. eapply path_flat; eassumption.
  - intros path o w Hp. eapply path_nested; eassumption.
Qed.

Theorem nest_access : forall E m mr endi enums structs before members after grp outer flat B, nested before members after grp outer flat ->
  (forall t, declared_total structs (ss_fields flat) = Some t -> t < 2 ^ 64) -> declared_total structs before = Some B ->
  forall i j k g x z, structure_from_model m endi enums structs i grp = Ok g ->
  structure_from_model m endi enums (sinsert (ss_name grp) g structs) j outer = Ok x -> structure_from_model m endi enums structs k flat = Ok z ->
  forall path o w, path_at x path o w -> B mod 8 = 0 \/ hd_error path <> Some (length before) ->
  forall data, s_byte_size x <= len data ->
    path_get (E:=E) mr z (flat_path (length before) (length members) path) data = path_get mr x path data /\
    (forall v, path_set (E:=E) mr z (flat_path (length before) (length members) path) data v = path_set mr x path data v).
Proof.
  intros E m mr endi enums structs before members after grp outer flat B Hn Hf HB i j k g x z Hg Hx Hz path o w Hp Ha data Hl.
  destruct (nest_all m endi enums structs before members after grp outer flat Hn Hf i j k g x z Hg Hx Hz) as (B' & fb & fa & nm & H).
  pose proof (ns_start _ _ _ _ _ _ _ _ _ _ _ _ _ H) as HB'. rewrite HB in HB'. injection HB' as <-. destruct Ha as [Ha|Ha].
  - destruct (path_same _ _ _ _ _ _ _ _ _ _ _ _ _ H (E:=E) mr data Ha Hl path o w Hp) as (G1 & G2). split; [symmetry; exact G1|]. intro v. symmetry. apply G2.
  - destruct (path_same_out _ _ _ _ _ _ _ _ _ _ _ _ _ H (E:=E) mr data path o w Hp Ha) as (G1 & G2). split; [symmetry; exact G1|]. intro v. symmetry. apply G2.
Qed.

Theorem nest_members : forall E m mr endi enums structs before members after grp outer flat B, nested before members after grp outer flat ->
  (forall t, declared_total structs (ss_fields flat) = Some t -> t < 2 ^ 64) -> declared_total structs before = Some B -> B mod 8 = 0 ->
  forall i j k g x z, structure_from_model m endi enums structs i grp = Ok g ->
  structure_from_model m endi enums (sinsert (ss_name grp) g structs) j outer = Ok x -> structure_from_model m endi enums structs k flat = Ok z ->
  exists nm loc, nth_error (s_fields x) (length before) = Some (FStruct nm g loc) /\
  forall data, s_byte_size x <= len data ->
  (forall n f, nth_error (s_fields g) n = Some (FFixed f) -> exists f', nth_error (s_fields z) (length before + n) = Some (FFixed f') /\
     get_view (E:=E) mr f' data = (w <- slice data (l_byte_offset loc) (l_byte_offset loc + l_byte_size loc) ;; get_view mr f w) /\
     forall v, set_view (E:=E) mr f' data v = update_slice data (l_byte_offset loc) (l_byte_offset loc + l_byte_size loc) (fun w => set_view mr f w v)) /\
  (forall n f, nth_error (s_fields g) n = Some (FArray f) -> exists f', nth_error (s_fields z) (length before + n) = Some (FArray f') /\
     forall p, arr_get (E:=E) mr f' data p = (w <- slice data (l_byte_offset loc) (l_byte_offset loc + l_byte_size loc) ;; arr_get mr f w p) /\
     forall v, arr_set (E:=E) mr f' data p v = update_slice data (l_byte_offset loc) (l_byte_offset loc + l_byte_size loc) (fun w => arr_set mr f w p v)).
Proof.
  intros E m mr endi enums structs before members after grp outer flat B Hn Hf HB Ha i j k g x z Hg Hx Hz.
  destruct (nest_all m endi enums structs before members after grp outer flat Hn Hf i j k g x z Hg Hx Hz) as (B' & fb & fa & nm & H).
  pose proof (ns_start _ _ _ _ _ _ _ _ _ _ _ _ _ H) as HB'. rewrite HB in HB'. injection HB' as <-.
  exists nm, (location_from_model (s_bit_size g) B). split.
  - rewrite (ns_outer _ _ _ _ _ _ _ _ _ _ _ _ _ H), <- (ns_nb _ _ _ _ _ _ _ _ _ _ _ _ _ H), nth_error_app2, Nat.sub_diag by lia. reflexivity.
  - intros data Hl. cbn [location_from_model l_byte_offset l_byte_size]. split; intros n f Hm.
    + exact (view_same _ _ _ _ _ _ _ _ _ _ _ _ _ H (E:=E) mr data Ha Hl n f Hm).
    + exact (array_same _ _ _ _ _ _ _ _ _ _ _ _ _ H (E:=E) mr data Ha Hl n f Hm).
Qed.

Theorem nest_exact : forall E m mr enums structs before members after grp outer flat B, built m structs -> nested before members after grp outer flat ->
  (forall t, declared_total structs (ss_fields flat) = Some t -> t < 2 ^ 64) -> declared_total structs before = Some B ->
  forall i j k g x z, structure_from_model m Little enums structs i grp = Ok g ->
  structure_from_model m Little enums (sinsert (ss_name grp) g structs) j outer = Ok x -> structure_from_model m Little enums structs k flat = Ok z ->
  forall rest o w, path_at x (length before :: rest) o w ->
  path_bytes_aligned z (flat_path (length before) (length members) (length before :: rest)) -> 0 < w <= 64 -> addressable o w ->
  (B mod 8 = 0 <->
   forall data, s_byte_size x <= len data -> bytes_ok data ->
     path_get (E:=E) mr z (flat_path (length before) (length members) (length before :: rest)) data = path_get mr x (length before :: rest) data) /\
  (B mod 8 = 0 <->
   forall data v, s_byte_size x <= len data -> bytes_ok data ->
     path_set (E:=E) mr z (flat_path (length before) (length members) (length before :: rest)) data v = path_set mr x (length before :: rest) data v).
Proof.
  intros E m mr enums structs before members after grp outer flat B Hbu Hn Hf HB i j k g x z Hg Hx Hz rest o w Hp Hal Hw Had.
  destruct (nest_all m Little enums structs before members after grp outer flat Hn Hf i j k g x z Hg Hx Hz) as (B' & fb & fa & nm & H).
  pose proof (ns_start _ _ _ _ _ _ _ _ _ _ _ _ _ H) as HB'. rewrite HB in HB'. injection HB' as <-.
  assert (Bg : built m (sinsert (ss_name grp) g structs)).
  { apply (built_def m enums structs i grp g (ss_name grp) structs Hbu Hg); [|exact Hbu]. right. intros t Ht. destruct Hn as (_ & E2 & _). rewrite E2 in Ht.
    rewrite (ns_group _ _ _ _ _ _ _ _ _ _ _ _ _ H) in Ht. injection Ht as <-. pose proof (Hf _ (ns_total _ _ _ _ _ _ _ _ _ _ _ _ _ H)). pose proof (ns_sum _ _ _ _ _ _ _ _ _ _ _ _ _ H). lia. }
  assert (Bx : built m (sinsert (ss_name outer) x (sinsert (ss_name grp) g structs))).
  { apply (built_def m enums _ j outer x _ _ Bg Hx); [|exact Bg]. right. intros t Ht. rewrite (ns_outer_total _ _ _ _ _ _ _ _ _ _ _ _ _ H) in Ht.
    injection Ht as <-. exact (Hf _ (ns_total _ _ _ _ _ _ _ _ _ _ _ _ _ H)). }
  assert (Bz : built m (sinsert (ss_name flat) z structs)) by (apply (built_def m enums structs k flat z _ structs Hbu Hz); [right; exact Hf|exact Hbu]).
  pose proof (path_flat _ _ _ _ _ _ _ _ _ _ _ _ _ H _ _ _ Hp) as Hpz.
  assert (Sx : sget (ss_name outer) (sinsert (ss_name outer) x (sinsert (ss_name grp) g structs)) = Some x) by (rewrite sget_sinsert, String.eqb_refl; reflexivity).
  assert (Sz : sget (ss_name flat) (sinsert (ss_name flat) z structs) = Some z) by (rewrite sget_sinsert, String.eqb_refl; reflexivity).
  destruct (nested_exact (E:=E) m mr _ _ _ _ _ _ Bx Sx Hp Hw) as ((X1 & _) & (X2 & _)).
  destruct (nested_exact (E:=E) m mr _ _ _ _ _ _ Bz Sz Hpz Hw) as ((_ & Z1) & (_ & Z2)).
  assert (Fin : path_bytes_aligned x (length before :: rest) /\ addressable o w -> B mod 8 = 0).
  { intros (K & _). cbn [path_bytes_aligned] in K. rewrite (ns_outer _ _ _ _ _ _ _ _ _ _ _ _ _ H), <- (ns_nb _ _ _ _ _ _ _ _ _ _ _ _ _ H) in K.
    rewrite nth_error_app2, Nat.sub_diag in K by lia. cbn [nth_error] in K. destruct K as (K & _). rewrite firstn_app, Nat.sub_diag, firstn_all, app_nil_r in K.
    rewrite (ns_before_bits _ _ _ _ _ _ _ _ _ _ _ _ _ H) in K. exact K. }
  split; split.
  - intros Ha data Hl _. exact (proj1 (nest_access E m mr Little enums structs before members after grp outer flat B Hn Hf HB i j k g x z Hg Hx Hz _ o w Hp (or_introl Ha) data Hl)).
  - intro Heq. apply Fin, X1. intros buf Hl Hb. destruct (Z1 (conj Hal Had) buf) as (v & Hv & Hf'); [rewrite (ns_bytes _ _ _ _ _ _ _ _ _ _ _ _ _ H); exact Hl|exact Hb|].
    exists v. rewrite <- Heq by assumption. auto.
  - intros Ha data v Hl _. exact (proj2 (nest_access E m mr Little enums structs before members after grp outer flat B Hn Hf HB i j k g x z Hg Hx Hz _ o w Hp (or_introl Ha) data Hl) v).
  - intro Heq. apply Fin, X2. intros buf v Hl Hb. destruct (Z2 (conj Hal Had) buf v) as (b' & Hv & Hf'); [rewrite (ns_bytes _ _ _ _ _ _ _ _ _ _ _ _ _ H); exact Hl|exact Hb|].
    exists b'. rewrite <- Heq by assumption. auto.
Qed.
