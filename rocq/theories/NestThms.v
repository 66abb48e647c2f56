(** C92: fields of a structure that are put into a structure of their own. *)

From Coq Require Import Arith NArith ZArith Ascii String List Bool Lia ZifyBool ZifyN ZifyNat.
From Verif Require Import Base Schema Codec Compiler Access SpecStruct StructFacts StructThms NestedThms ItemsThms EvolveThms SpecNest.
Import ListNotations.
Local Open Scope N_scope.
Local Open Scope list_scope.
Ltac Zify.zify_post_hook ::= idtac.

(** ** Fields that are moved by [B] bits *)
Definition move_loc (B : N) (l : location) : location := location_from_model (l_bit_size l) (B + (8 * l_byte_offset l + l_bit_offset l)).
Definition move (B : N) (f : field) : field :=
  match f with
  | FFixed x => FFixed {| ff_name := ff_name x; ff_ty := ff_ty x; ff_loc := move_loc B (ff_loc x); ff_view := ff_view x; ff_endianness := ff_endianness x |}
  | FArray x => FArray {| fa_name := fa_name x; fa_ty := fa_ty x; fa_array_len := fa_array_len x; fa_loc := move_loc B (fa_loc x); fa_endianness := fa_endianness x |}
  | FStruct n r l => FStruct n r (move_loc B l)
  end.
Lemma move_at : forall B w o, move_loc B (location_from_model w o) = location_from_model w (B + o).
Proof. intros B w o. unfold move_loc. pose proof (loc_start w o) as H. unfold bit_start in H. rewrite H. reflexivity. Qed.
Lemma uadd_ok : forall {E} m a b, a + b < usize_mod -> uadd (E:=E) m a b = Ok (a + b).
Proof. intros E m a b H. unfold uadd. replace (a + b <? usize_mod) with true by lia. reflexivity. Qed.
Lemma umul_ok : forall {E} m a b, a * b < usize_mod -> umul (E:=E) m a b = Ok (a * b).
Proof. intros E m a b H. unfold umul. replace (a * b <? usize_mod) with true by lia. reflexivity. Qed.

Definition moved (B : N) (r : cres (field * N)) : cres (field * N) := '(f, o) <- r ;; Ok (move B f, B + o).
Definition moved_all (B : N) (r : cres (list field * N)) : cres (list field * N) := '(l, o) <- r ;; Ok (map (move B) l, B + o).
Lemma field_moved : forall m endi enums structs B o v w, declared_bits structs v = Some w -> B + o + w < usize_mod ->
  field_from_model m endi enums structs (B + o) v = moved B (field_from_model m endi enums structs o v).
Proof.
  intros m endi enums structs B o v w Hw Hl. unfold field_from_model, declared_bits in *.
  destruct (sf_info v) as [b|b|b|b|n].
  5:{ destruct (sget n structs) as [r|]; [|discriminate]. injection Hw as <-. cbn [ok_or bind]. rewrite !uadd_ok by lia. cbn [bind moved move].
      rewrite move_at, N.add_assoc. reflexivity. }
  all: set (al := match sf_array_len v with Some n => n | None => 1 end) in *; injection Hw as <-; cbn [get_bit_size ok_or bind].
  all: match goal with |- context [view_from_model ?a ?b ?c ?d ?e] => destruct (view_from_model a b c d e) as [view|e0|]; [|reflexivity..] end; cbn [bind].
  all: rewrite umul_ok by lia; cbn [bind].
  all: match goal with |- context [fixed_from_model ?a] => destruct (fixed_from_model a) as [ty|e0|]; [|reflexivity..] end; cbn [bind].
  all: destruct (1 <? al); [destruct (negb _); [reflexivity|]|]; rewrite !uadd_ok by lia; cbn [bind moved move ff_name ff_ty ff_loc ff_view ff_endianness fa_name fa_ty fa_array_len fa_loc fa_endianness]; rewrite move_at, N.add_assoc; reflexivity.
Qed.
Lemma field_end : forall m endi enums structs o v w f o', declared_bits structs v = Some w -> o + w < usize_mod ->
  field_from_model m endi enums structs o v = Ok (f, o') -> o' = o + w.
Proof.
  intros m endi enums structs o v w f o' Hw Hl H. apply field_from_model_layout in H. destruct H as (w' & Hw' & _ & H).
  rewrite Hw in Hw'. injection Hw' as <-. apply H. right. exact Hl.
Qed.
Lemma fields_moved : forall m endi enums structs B l o t, declared_total structs l = Some t -> B + o + t < usize_mod ->
  fields_from_model m endi enums structs (B + o) l = moved_all B (fields_from_model m endi enums structs o l).
Proof.
  intros m endi enums structs B. induction l as [|v l IH]; intros o t Ht Hl; [reflexivity|].
  cbn [declared_total] in Ht. destruct (declared_bits structs v) as [w|] eqn:Hw; [|discriminate]. destruct (declared_total structs l) as [t'|] eqn:Ht'; [|discriminate].
  injection Ht as <-. cbn [fields_from_model]. rewrite (field_moved _ _ _ _ _ _ _ _ Hw) by lia.
  destruct (field_from_model m endi enums structs o v) as [[f o']|e|] eqn:Hf; [|reflexivity..]. cbn [moved bind].
  apply (field_end _ _ _ _ _ _ _ _ _ Hw) in Hf; [|lia]. subst o'. rewrite (IH (o + w) t') by (try reflexivity; lia).
  destruct (fields_from_model m endi enums structs (o + w) l) as [[fs o']|e|]; reflexivity.
Qed.
Lemma fields_end : forall m endi enums structs l o t fs o', declared_total structs l = Some t -> o + t < usize_mod ->
  fields_from_model m endi enums structs o l = Ok (fs, o') -> o' = o + t /\ length fs = length l.
Proof.
  intros m endi enums structs l o t fs o' Ht Hl H. apply fields_from_model_layout in H. destruct H as (L & t' & Ht' & H).
  rewrite Ht in Ht'. injection Ht' as <-. split; [|exact L]. apply H. right. exact Hl.
Qed.

(** ** A new structure, which is not referred to *)
Lemma bits_other : forall structs n g v, sf_info v <> STStruct n -> declared_bits (sinsert n g structs) v = declared_bits structs v.
Proof.
  intros structs n g v H. unfold declared_bits. destruct (sf_info v) as [b|b|b|b|k]; try reflexivity. rewrite sget_sinsert.
  destruct (String.eqb_spec k n); [subst; contradiction|reflexivity].
Qed.
Lemma total_other : forall structs n g l, (forall v, In v l -> sf_info v <> STStruct n) -> declared_total (sinsert n g structs) l = declared_total structs l.
Proof.
  intros structs n g. induction l as [|v l IH]; intro H; [reflexivity|]. cbn [declared_total].
  rewrite bits_other by (apply H; left; reflexivity). rewrite IH by (intros u Hu; apply H; right; exact Hu). reflexivity.
Qed.
Lemma fields_other : forall m endi enums structs n g l o, (forall v, In v l -> sf_info v <> STStruct n) ->
  fields_from_model m endi enums (sinsert n g structs) o l = fields_from_model m endi enums structs o l.
Proof.
  intros m endi enums structs n g. induction l as [|v l IH]; intros o H; [reflexivity|]. cbn [fields_from_model].
  replace (field_from_model m endi enums (sinsert n g structs) o v) with (field_from_model m endi enums structs o v).
  - destruct (field_from_model m endi enums structs o v) as [[f o']|e|]; [|reflexivity..]. cbn [bind]. rewrite IH; [reflexivity|].
    intros u Hu. apply H. right. exact Hu.
  - specialize (H v (or_introl eq_refl)). unfold field_from_model. destruct (sf_info v) as [b|b|b|b|k]; try reflexivity. rewrite sget_sinsert.
    destruct (String.eqb_spec k n); [subst; contradiction|reflexivity].
Qed.

Lemma total_app : forall structs l1 l2 a b, declared_total structs l1 = Some a -> declared_total structs l2 = Some b ->
  declared_total structs (l1 ++ l2) = Some (a + b).
Proof.
  intros structs. induction l1 as [|v l1 IH]; intros l2 a b H1 H2; cbn [app declared_total] in *; [injection H1 as <-; exact H2|].
  destruct (declared_bits structs v); [|discriminate]. destruct (declared_total structs l1) as [c|]; [|discriminate]. injection H1 as <-.
  rewrite (IH _ c b eq_refl H2). f_equal. lia.
Qed.

(** ** Positions *)
Lemma field_bits_declared : forall m endi enums structs o v w f o', declared_bits structs v = Some w -> o + w < usize_mod ->
  field_from_model m endi enums structs o v = Ok (f, o') -> field_bits f = w.
Proof.
  intros m endi enums structs o v w f o' Hw Hl H. unfold field_from_model, declared_bits in *. destruct (sf_info v) as [b|b|b|b|n].
  5:{ destruct (sget n structs) as [r|]; [|discriminate]. injection Hw as <-. cbn [ok_or bind] in H. rewrite uadd_ok in H by lia. cbn [bind] in H. injection H as <- _. reflexivity. }
  all: injection Hw as <-; cbn [get_bit_size ok_or bind] in H; apply bind_ok in H; destruct H as (view & _ & H);
    rewrite umul_ok in H by lia; cbn [bind] in H; apply bind_ok in H; destruct H as (ty & _ & H);
    match type of H with context [1 <? ?al] => destruct (1 <? al); [destruct (negb _); [discriminate|]|] end;
    rewrite uadd_ok in H by lia; cbn [bind] in H; injection H as <- _; reflexivity.
Qed.
Lemma fields_bits : forall m endi enums structs l o t fs o', declared_total structs l = Some t -> o + t < usize_mod ->
  fields_from_model m endi enums structs o l = Ok (fs, o') -> total_bits fs = t.
Proof.
  intros m endi enums structs. induction l as [|v l IH]; intros o t fs o' Ht Hl H; cbn [declared_total fields_from_model] in *.
  - injection Ht as <-. injection H as <- _. reflexivity.
  - destruct (declared_bits structs v) as [w|] eqn:Hw; [|discriminate]. destruct (declared_total structs l) as [t'|]; [|discriminate]. injection Ht as <-.
    apply bind_ok in H. destruct H as ((f & o1) & Hf & H). apply bind_ok in H. destruct H as ((fs1 & o2) & H & K). injection K as <- _.
    cbn [total_bits]. rewrite (field_bits_declared m endi enums structs o v w f o1 Hw ltac:(lia) Hf).
    pose proof (field_end m endi enums structs o v w f o1 Hw ltac:(lia) Hf). subst o1. rewrite (IH (o + w) t' fs1 o2 eq_refl ltac:(lia) H). reflexivity.
Qed.

(** ** The three structures *)
Section Nested.
Variables (m : mode) (endi : endianness) (enums : smap enum_) (structs : smap structure).
Variables (before members after : list sfield) (grp outer flat : sstruct).
Hypothesis Hn : nested before members after grp outer flat.
Hypothesis Hfit : forall t, declared_total structs (ss_fields flat) = Some t -> t < usize_mod.

Record nest_shape (g x z : structure) (B : N) (fb fa : list field) (nm : string) : Prop := {
  ns_start : declared_total structs before = Some B;
  ns_nb : length fb = length before;
  ns_ng : length (s_fields g) = length members;
  ns_outer : s_fields x = fb ++ FStruct nm g (location_from_model (s_bit_size g) B) :: fa;
  ns_flat : s_fields z = fb ++ map (move B) (s_fields g) ++ fa;
  ns_bits : s_bit_size z = s_bit_size x;
  ns_bytes : s_byte_size z = s_byte_size x;
  ns_total : declared_total structs (ss_fields flat) = Some (s_bit_size x);
  ns_group : declared_total structs members = Some (s_bit_size g);
  ns_locs : forall i f, nth_error (s_fields g) i = Some f -> exists w o, field_loc f = location_from_model w o /\ o + w <= s_bit_size g;
  ns_group_bits : total_bits (s_fields g) = s_bit_size g;
  ns_before_bits : total_bits fb = B;
  ns_outer_total : declared_total (sinsert (ss_name grp) g structs) (ss_fields outer) = Some (s_bit_size x);
  ns_sum : B + s_bit_size g <= s_bit_size x;
  ns_outer_bytes : s_byte_size x = bytes_of_bits (s_bit_size x);
  ns_group_bytes : s_byte_size g = bytes_of_bits (s_bit_size g) }.

Theorem nest_shape_flat : forall i j k z, structure_from_model m endi enums structs k flat = Ok z ->
  exists g x B fb fa nm, structure_from_model m endi enums structs i grp = Ok g /\
    structure_from_model m endi enums (sinsert (ss_name grp) g structs) j outer = Ok x /\ nest_shape g x z B fb fa nm.
Proof.
  intros i j k z Hz. destruct Hn as (E1 & E2 & (f & E3 & Ef) & E4 & N1). unfold structure_from_model in *.
  apply bind_ok in Hz. destruct Hz as ((fz & T) & Hz & K). injection K as <-.
  assert (HT : declared_total structs (ss_fields flat) = Some T).
  { pose proof (fields_from_model_layout _ _ _ _ _ _ _ _ Hz) as (_ & t & Ht & Hlay). rewrite Ht. f_equal. symmetry. apply Hlay. right. apply Hfit, Ht. }
  pose proof (Hfit _ HT) as LT. rewrite E1 in Hz, HT.
  apply StructThms.declared_total_app in HT. destruct HT as (B & t' & HB & HT & ->).
  apply StructThms.declared_total_app in HT. destruct HT as (S & A & HS & HA & ->).
  rewrite !fields_app in Hz. apply bind_ok in Hz. destruct Hz as ((fb & o1) & Hb & Hz). apply bind_ok in Hz. destruct Hz as ((fs & o2) & Hz & K). injection K as <- ->.
  rewrite fields_app in Hz. apply bind_ok in Hz. destruct Hz as ((fm & o3) & Hm & Hz). apply bind_ok in Hz. destruct Hz as ((fa & o4) & Ha & K). injection K as <- ->.
  destruct (fields_end m endi enums structs before 0 B fb o1 HB ltac:(lia) Hb) as (-> & Lb). rewrite N.add_0_l in *.
  destruct (fields_end m endi enums structs members B S fm o3 HS ltac:(lia) Hm) as (-> & Lm).
  replace B with (B + 0) in Hm at 1 by lia. rewrite (fields_moved _ _ _ _ _ _ _ _ HS) in Hm by lia.
  rewrite E2, E3. destruct (fields_from_model m endi enums structs 0 members) as [[gs o5]|e|] eqn:Hg; [|discriminate..].
  cbn [moved_all bind] in Hm. injection Hm as <- E5. assert (o5 = S) by lia. subst o5. cbn [bind].
  set (g := MkStructure i (ss_name grp) gs (bytes_of_bits S) S).
  assert (Hx : fields_from_model m endi enums (sinsert (ss_name grp) g structs) 0 (before ++ f :: after) =
    Ok (fb ++ FStruct (sf_name f) g (location_from_model S B) :: fa, B + (S + A))).
  { rewrite fields_app, fields_other by (intros v Hv; apply N1; left; exact Hv). rewrite Hb. cbn [bind fields_from_model].
    unfold field_from_model at 1. rewrite Ef, sget_sinsert, String.eqb_refl. cbn [ok_or bind]. change (s_bit_size g) with S.
    rewrite uadd_ok by lia. cbn [bind]. rewrite fields_other by (intros v Hv; apply N1; right; exact Hv). rewrite Ha. reflexivity. }
  exists g. eexists. exists B, fb, fa, (sf_name f). split; [reflexivity|]. split; [rewrite Hx; reflexivity|].
  rewrite map_length in Lm.
  constructor; cbn [s_fields s_bit_size s_byte_size g]; try reflexivity; try assumption.
  - rewrite E1. apply total_app; [exact HB|]. apply total_app; assumption.
  - intros n f' Hf'. pose proof (fields_from_model_layout _ _ _ _ _ _ _ _ Hg) as (Lg & t0 & Ht0 & G). rewrite HS in Ht0. injection Ht0 as <-.
    destruct G as (_ & G); [right; lia|]. destruct (nth_error members n) as [d|] eqn:Hd.
    + destruct (G n f' d Hf' Hd) as (_ & o & w & _ & _ & Hle & Hloc). exists w, (0 + o). split; [exact Hloc|lia].
    + apply nth_error_None in Hd. rewrite <- Lg in Hd. apply nth_error_None in Hd. congruence.
  - eapply fields_bits; [exact HS| |exact Hg]. lia.
  - eapply fields_bits; [exact HB| |exact Hb]. lia.
  - rewrite E3. apply total_app; [rewrite total_other by (intros v Hv; apply N1; left; exact Hv); exact HB|]. cbn [declared_total].
    rewrite total_other by (intros v Hv; apply N1; right; exact Hv). unfold declared_bits. rewrite Ef, sget_sinsert, String.eqb_refl, HA. reflexivity.
  - lia.
Qed.

Theorem nest_flat : forall i j k g x, structure_from_model m endi enums structs i grp = Ok g ->
  structure_from_model m endi enums (sinsert (ss_name grp) g structs) j outer = Ok x -> exists z, structure_from_model m endi enums structs k flat = Ok z.
Proof.
  intros i j k g x Hg Hx. destruct Hn as (E1 & E2 & (f & E3 & Ef) & E4 & N1). unfold structure_from_model in *. rewrite E2 in Hg. rewrite E3 in Hx.
  apply bind_ok in Hg. destruct Hg as ((gs & S) & Hg & K). injection K as <-. apply bind_ok in Hx. destruct Hx as ((fx & T) & Hx & _).
  rewrite fields_app in Hx. apply bind_ok in Hx. destruct Hx as ((fb & o1) & Hb & Hx). apply bind_ok in Hx. destruct Hx as ((fs & o2) & Hx & _).
  rewrite fields_other in Hb by (intros v Hv; apply N1; left; exact Hv). cbn [fields_from_model] in Hx. apply bind_ok in Hx. destruct Hx as ((gf & o3) & Hf & Hx).
  apply bind_ok in Hx. destruct Hx as ((fa & o4) & Ha & _). rewrite fields_other in Ha by (intros v Hv; apply N1; right; exact Hv).
  pose proof (fields_from_model_layout _ _ _ _ _ _ _ _ Hb) as (_ & B & HB & _). pose proof (fields_from_model_layout _ _ _ _ _ _ _ _ Hg) as (_ & S' & HS & _).
  pose proof (fields_from_model_layout _ _ _ _ _ _ _ _ Ha) as (_ & A & HA & _).
  assert (L : B + (S' + A) < usize_mod).
  { apply Hfit. rewrite E1. apply total_app; [exact HB|]. apply total_app; assumption. }
  destruct (fields_end m endi enums structs before 0 B fb o1 HB ltac:(lia) Hb) as (-> & _). rewrite N.add_0_l in *.
  destruct (fields_end m endi enums structs members 0 S' gs S HS ltac:(lia) Hg) as (-> & _). rewrite N.add_0_l in *.
  unfold field_from_model in Hf. rewrite Ef, sget_sinsert, String.eqb_refl in Hf. cbn [ok_or bind s_bit_size] in Hf. rewrite uadd_ok in Hf by lia. cbn [bind] in Hf.
  injection Hf as _ <-.
  assert (Hm : fields_from_model m endi enums structs B members = Ok (map (move B) gs, B + S')).
  { pose proof (fields_moved m endi enums structs B members 0 S' HS ltac:(lia)) as K. rewrite N.add_0_r in K. rewrite K, Hg. reflexivity. }
  rewrite E1, fields_app, Hb. cbn [bind]. rewrite fields_app, Hm. cbn [bind]. rewrite Ha. cbn [bind]. eexists. reflexivity.
Qed.
End Nested.


(** ** Windows *)
Section Windows.
Context {E : Type}.
Lemma window_in : forall (b : bytes) k n, k + n <= len b -> exists w, slice (E:=E) b k (k + n) = Ok w /\ len w = n /\ w = firstn (N.to_nat n) (skipn (N.to_nat k) b).
Proof.
  intros b k n H. unfold slice. replace ((k <=? k + n) && (k + n <=? len b)) with true by lia. eexists. split; [reflexivity|].
  replace (N.to_nat (k + n - k)) with (N.to_nat n) by lia. split; [|reflexivity]. unfold len in *. rewrite firstn_length, skipn_length. lia.
Qed.
Lemma skip_firstn : forall {A} (l : list A) a n, skipn a (firstn n l) = firstn (n - a) (skipn a l).
Proof. intros A l a n. apply skipn_firstn_comm. Qed.
Lemma skip_skip : forall {A} (l : list A) a k, skipn a (skipn k l) = skipn (k + a) l.
Proof. intros A l a k. revert l. induction k as [|k IH]; intro l; [reflexivity|]. destruct l as [|x l]; [destruct a; reflexivity|]. cbn [skipn Nat.add]. apply IH. Qed.
Lemma slice_inner : forall (b : bytes) k n a y, k + n <= len b -> y <= n ->
  slice (E:=E) b (k + a) (k + y) = (w <- slice b k (k + n) ;; slice w a y).
Proof.
  intros b k n a y H Hy. destruct (window_in b k n H) as (w & -> & Lw & ->). cbn [bind]. unfold slice. rewrite Lw.
  destruct (N.leb_spec a y) as [K|K]; cbn [andb].
  - replace (k + a <=? k + y) with true by lia. replace (k + y <=? len b) with true by lia. replace (y <=? n) with true by lia. cbn [andb]. f_equal.
    rewrite skip_firstn, skip_skip, firstn_firstn. replace (N.to_nat (k + a)) with (N.to_nat k + N.to_nat a)%nat by lia. f_equal. lia.
  - replace (k + a <=? k + y) with false by lia. reflexivity.
Qed.
Lemma update_inner : forall (b : bytes) k n a y F, k + n <= len b -> y <= n -> keeps F ->
  update_slice (E:=E) b (k + a) (k + y) F = update_slice b k (k + n) (fun w => update_slice w a y F).
Proof.
  intros b k n a y F H Hy HF. unfold update_slice. rewrite (slice_inner b k n) by assumption.
  destruct (window_in b k n H) as (w & -> & Lw & Ew). cbn [bind]. destruct (slice (E:=E) w a y) as [u|e|] eqn:Hu; [|reflexivity..]. cbn [bind].
  destruct (F u) as [u'|e|] eqn:Hf; [|reflexivity..]. cbn [bind]. f_equal. apply HF in Hf. apply slice_len in Hu. destruct Hu as (Hu & _).
  unfold splice. unfold len in *.
  assert (L1 : (length w = N.to_nat n)%nat) by lia.
  rewrite !app_length, firstn_length, skipn_length. 
  replace (N.to_nat k + (Nat.min (N.to_nat a) (length w) + (length u' + (length w - (N.to_nat a + length u')))))%nat with (N.to_nat k + N.to_nat n)%nat by lia.
  rewrite <- !app_assoc. replace (N.to_nat (k + a)) with (N.to_nat k + N.to_nat a)%nat by lia.
  rewrite Ew. rewrite firstn_firstn, skip_firstn, skip_skip. replace (Nat.min (N.to_nat a) (N.to_nat n)) with (N.to_nat a) by lia.
  rewrite <- (firstn_skipn (N.to_nat k) b) at 1. rewrite firstn_app, firstn_length. 
  rewrite firstn_firstn. replace (Nat.min (N.to_nat k + N.to_nat a) (N.to_nat k)) with (N.to_nat k) by lia.
  replace (N.to_nat k + N.to_nat a - Nat.min (N.to_nat k) (length b))%nat with (N.to_nat a) by lia.
  rewrite <- app_assoc. f_equal. f_equal. f_equal.
  rewrite <- (firstn_skipn (N.to_nat n - (N.to_nat a + length u')) (skipn (N.to_nat k + N.to_nat a + length u') b)) at 1.
  rewrite skip_skip. f_equal; f_equal; [f_equal|]; lia.
Qed.
End Windows.
