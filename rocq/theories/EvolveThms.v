(** Proofs for C66 to C70. *)

From Coq Require Import Arith NArith ZArith String List Bool Lia ZifyBool ZifyN ZifyNat.
From Verif Require Import Base Schema Codec Compiler Access Bits BitsFacts CodecFacts SpecStruct StructFacts StructThms
  Utf8 Runtime Gen Loader SpecWire MsgFacts WriteThms ReadThms SoundThms TotalThms SpecOffsets OffsetThms EnumThms SpecEvolve.
Import ListNotations.
Local Open Scope N_scope.
Ltac Zify.zify_post_hook ::= idtac.

(** ** Structures *)

Lemma fields_app : forall m endi enums structs l1 l2 off,
  fields_from_model m endi enums structs off (l1 ++ l2) =
  ('(fs1, o1) <- fields_from_model m endi enums structs off l1 ;;
   '(fs2, o2) <- fields_from_model m endi enums structs o1 l2 ;; Ok ((fs1 ++ fs2)%list, o2)).
Proof.
  intros m endi enums structs l1 l2. induction l1 as [|v l1 IH]; intro off; cbn [app fields_from_model bind].
  - destruct (fields_from_model m endi enums structs off l2) as [[? ?]|?|]; reflexivity.
  - destruct (field_from_model m endi enums structs off v) as [[f o]|e|]; [|reflexivity..]. cbn [bind].
    rewrite IH. destruct (fields_from_model m endi enums structs o l1) as [[fs1 o1]|e|]; [|reflexivity..]. cbn [bind].
    destruct (fields_from_model m endi enums structs o1 l2) as [[fs2 o2]|e|]; reflexivity.
Qed.

Theorem struct_prefix : forall m endi enums structs id d d' s', struct_extended d d' ->
  structure_from_model m endi enums structs id d' = Ok s' ->
  exists s, structure_from_model m endi enums structs id d = Ok s /\ s_name s' = s_name s /\
    exists more, s_fields s' = (s_fields s ++ more)%list.
Proof.
  intros m endi enums structs id d d' s' (Hn & more & Hf) H. unfold structure_from_model in *. rewrite Hf, fields_app in H.
  destruct (fields_from_model m endi enums structs 0 (ss_fields d)) as [[fs1 o1]|e|]; [|discriminate..]. cbn [bind] in *.
  destruct (fields_from_model m endi enums structs o1 more) as [[fs2 o2]|e|]; [|discriminate..]. cbn [bind] in H.
  injection H as <-. eexists. split; [reflexivity|]. cbn [s_name s_fields]. split; [exact Hn|]. exists fs2. reflexivity.
Qed.

Lemma declared_total_app : forall structs l1 l2 t, declared_total structs (l1 ++ l2) = Some t ->
  exists t1, declared_total structs l1 = Some t1 /\ t1 <= t.
Proof.
  intros structs l1 l2. induction l1 as [|d l1 IH]; intros t H; cbn [app declared_total] in *.
  - exists 0. split; [reflexivity|lia].
  - destruct (declared_bits structs d) as [w|]; [|discriminate].
    destruct (declared_total structs (l1 ++ l2)) as [u|]; [|discriminate]. destruct (IH u eq_refl) as (t1 & -> & Ht).
    injection H as <-. exists (w + t1). split; [reflexivity|lia].
Qed.

Lemma struct_prefix_size : forall m endi enums structs id d d' s s', struct_extended d d' ->
  structure_from_model m endi enums structs id d' = Ok s' -> structure_from_model m endi enums structs id d = Ok s ->
  no_overflow m structs d' -> no_overflow m structs d /\ s_bit_size s <= s_bit_size s' /\ s_byte_size s <= s_byte_size s'.
Proof.
  intros m endi enums structs id d d' s s' (_ & more & Hf) H' H Ho'.
  destruct (layout m endi enums structs id d' s' H' Ho') as (_ & _ & Ht' & Hb' & _).
  rewrite Hf in Ht'. destruct (declared_total_app _ _ _ _ Ht') as (t1 & Ht & Hle).
  assert (Ho : no_overflow m structs d).
  { destruct Ho' as [->|Ho']; [left; reflexivity|right]. intros t Hd. rewrite Hd in Ht. injection Ht as ->.
    rewrite Hf in Ho'. specialize (Ho' _ Ht'). lia. }
  split; [exact Ho|]. destruct (layout m endi enums structs id d s H Ho) as (_ & _ & Ht2 & Hb & _).
  rewrite Ht2 in Ht. injection Ht as <-. split; [exact Hle|]. rewrite Hb, Hb'. unfold ceil8.
  apply N.div_le_mono; lia.
Qed.

Section Windows.
Context {E : Type}.

Lemma slice_app : forall (b s : bytes) lo hi, hi <= len b -> slice (E:=E) (b ++ s)%list lo hi = slice b lo hi.
Proof.
  intros b s lo hi H. unfold slice. rewrite len_app. replace (hi <=? len b + len s) with true by lia.
  replace (hi <=? len b) with true by lia. destruct (lo <=? hi) eqn:C; [|reflexivity]. cbn [andb]. f_equal.
  rewrite skipn_app, firstn_app. rewrite skipn_length. unfold len in H.
  replace (N.to_nat (hi - lo) - (length b - N.to_nat lo))%nat with 0%nat by lia.
  rewrite firstn_O, app_nil_r. reflexivity.
Qed.

Definition keeps (f : bytes -> outcome E bytes) : Prop := forall w w', f w = Ok w' -> length w' = length w.

Lemma splice_app : forall (b s d : bytes) lo, (N.to_nat lo + length d <= length b)%nat ->
  splice (b ++ s)%list lo d = (splice b lo d ++ s)%list.
Proof.
  intros b s d lo H. unfold splice. rewrite firstn_app, skipn_app.
  replace (N.to_nat lo - length b)%nat with 0%nat by lia.
  replace (N.to_nat lo + length d - length b)%nat with 0%nat by lia. rewrite firstn_O, app_nil_r. cbn [skipn].
  rewrite <- !app_assoc. reflexivity.
Qed.
Lemma splice_length : forall (b d : bytes) lo, (N.to_nat lo + length d <= length b)%nat ->
  length (splice b lo d) = length b.
Proof. intros b d lo H. unfold splice. rewrite !app_length, firstn_length, skipn_length. lia. Qed.

Lemma slice_len : forall (b w : bytes) lo hi, slice (E:=E) b lo hi = Ok w ->
  (N.to_nat lo + length w <= length b)%nat /\ lo <= hi <= len b.
Proof.
  intros b w lo hi H. unfold slice in H. destruct ((lo <=? hi) && (hi <=? len b)) eqn:C; [|discriminate].
  injection H as <-. rewrite firstn_length, skipn_length. unfold len in *. lia.
Qed.

Lemma update_app : forall (b s : bytes) lo hi f, hi <= len b -> keeps f ->
  leaves_rest (update_slice b lo hi f) (update_slice (b ++ s)%list lo hi f) s.
Proof.
  intros b s lo hi f H Hk. unfold update_slice. rewrite slice_app by exact H.
  destruct (slice (E:=E) b lo hi) as [w|e|] eqn:Hw; [|reflexivity..]. cbn [bind].
  destruct (f w) as [w'|e|] eqn:Hf; [|reflexivity..]. cbn [bind leaves_rest].
  apply slice_len in Hw. apply Hk in Hf. rewrite splice_app by lia. reflexivity.
Qed.
Lemma keeps_update : forall lo hi f, keeps f -> keeps (fun b => update_slice b lo hi f).
Proof.
  intros lo hi f Hk b b' H. unfold update_slice in H. destruct (slice (E:=E) b lo hi) as [w|e|] eqn:Hw; [|discriminate..].
  cbn [bind] in H. destruct (f w) as [w'|e|] eqn:Hf; [|discriminate..]. injection H as <-.
  apply slice_len in Hw. apply Hk in Hf. apply splice_length. lia.
Qed.

Lemma le_enc_len : forall sz v, length (le_enc sz v) = sz.
Proof. induction sz as [|sz IH]; intro v; cbn [le_enc length]; [reflexivity|]. rewrite IH. reflexivity. Qed.
Lemma keeps_write_bytes : forall o sz v, keeps (fun b => write_bytes o sz b v).
Proof.
  intros o sz v w w' H. unfold write_bytes in H. destruct (length w <? sz)%nat eqn:C; [discriminate|]. injection H as <-.
  rewrite app_length, skipn_length. destruct o; rewrite ?rev_length, le_enc_len; lia.
Qed.
Lemma keeps_bit_aligned : forall m o sz bo bs v, keeps (fun b => bit_write_aligned m o sz bo bs b v).
Proof.
  intros m o sz bo bs v w w' H. unfold bit_write_aligned in H.
  repeat (apply bind_ok in H; destruct H as (? & _ & H)). eapply keeps_write_bytes, H.
Qed.
Lemma keeps_pad : forall (f : bytes -> outcome E bytes), keeps f ->
  keeps (fun b => d <- pad8 b ;; d' <- f d ;; Ok (firstn (length b) d')).
Proof.
  intros f Hk w w' H. apply bind_ok in H. destruct H as (d & Hd & H). apply bind_ok in H. destruct H as (d' & Hf & H).
  injection H as <-. unfold pad8 in Hd. destruct (8 <? length w)%nat eqn:C; [discriminate|]. injection Hd as <-.
  apply Hk in Hf. rewrite firstn_length, Hf, app_length. lia.
Qed.
Lemma keeps_ac : forall m a v, keeps (fun b => ac_set m a b v).
Proof.
  intros m a v. unfold ac_set. apply keeps_update. destruct (ac_bit a) as [[bo bs]|]; destruct (ac_aligned a).
  - apply keeps_bit_aligned.
  - apply (keeps_pad _ (keeps_bit_aligned _ _ _ _ _ _)).
  - apply keeps_write_bytes.
  - apply (keeps_pad _ (keeps_write_bytes _ _ _)).
Qed.
Lemma keeps_bind : forall A (x : outcome E A) f, (forall a, keeps (f a)) -> keeps (fun b => a <- x ;; f a b).
Proof. intros A x f H w w' Hb. apply bind_ok in Hb. destruct Hb as (a & _ & Hb). eapply H, Hb. Qed.
Lemma keeps_set_raw : forall m f v, keeps (fun b => set_raw m f b v).
Proof. intros m f v. apply (keeps_bind _ _ (fun a b => ac_set m a b v)). intro a. apply keeps_ac. Qed.
Lemma keeps_byte_write : forall o sz v, keeps (fun b => byte_write o sz b v).
Proof.
  intros o sz v w w' H. unfold byte_write in H. destruct (sz =? length w)%nat; [eapply keeps_write_bytes, H|].
  eapply (keeps_pad _ (keeps_write_bytes _ _ _)), H.
Qed.
Lemma keeps_array : forall m o sz ibs i v, keeps (fun b => array_set_raw m o sz ibs b i v).
Proof.
  intros m o sz ibs i v w w' H. unfold array_set_raw in H. apply bind_ok in H. destruct H as (p & _ & H).
  apply bind_ok in H. destruct H as (e & _ & H). eapply (keeps_update p e _ (keeps_byte_write o sz v)), H.
Qed.
Lemma keeps_path : forall m path s v, keeps (fun b => path_set m s path b v).
Proof.
  intros m path. induction path as [|i path IH]; intros s v w w' H; cbn [path_set] in H; [discriminate|].
  destruct (nth_error (s_fields s) i) as [[f|f|n r loc]|]; [|discriminate| |discriminate].
  - destruct path; [|discriminate]. eapply keeps_set_raw, H.
  - eapply (keeps_update _ _ _ (IH r v)), H.
Qed.

Lemma gen_fixed_window : forall f a, gen_fixed (E:=E) f = Ok a ->
  ac_start a = l_byte_offset (ff_loc f) /\ ac_end a = l_byte_offset (ff_loc f) + l_byte_size (ff_loc f).
Proof. intros f a H. unfold gen_fixed in H. apply bind_ok in H. destruct H as (r & _ & H). injection H as <-. split; reflexivity. Qed.

Lemma get_raw_app : forall m f (b s : bytes), l_byte_offset (ff_loc f) + l_byte_size (ff_loc f) <= len b ->
  get_raw (E:=E) m f (b ++ s)%list = get_raw m f b.
Proof.
  intros m f b s H. unfold get_raw. destruct (gen_fixed f) as [a|e|] eqn:G; [|reflexivity..]. cbn [bind].
  apply gen_fixed_window in G. unfold ac_get. rewrite slice_app by lia. reflexivity.
Qed.
Lemma get_view_app : forall m f (b s : bytes), l_byte_offset (ff_loc f) + l_byte_size (ff_loc f) <= len b ->
  get_view (E:=E) m f (b ++ s)%list = get_view m f b.
Proof.
  intros m f b s H. unfold get_view. destruct (gen_fixed f) as [a|e|] eqn:G; [|reflexivity..]. cbn [bind].
  apply gen_fixed_window in G. unfold ac_get. rewrite slice_app by lia. reflexivity.
Qed.
Lemma set_raw_app : forall m f (b s : bytes) v, l_byte_offset (ff_loc f) + l_byte_size (ff_loc f) <= len b ->
  leaves_rest (set_raw (E:=E) m f b v) (set_raw m f (b ++ s)%list v) s.
Proof.
  intros m f b s v H. unfold set_raw. destruct (gen_fixed f) as [a|e|] eqn:G; [|reflexivity..]. cbn [bind].
  apply gen_fixed_window in G. unfold ac_set. apply update_app; [lia|].
  intros w w' Hw. destruct (ac_bit a) as [[bo bs]|]; destruct (ac_aligned a).
  - eapply keeps_bit_aligned, Hw.
  - eapply (keeps_pad _ (keeps_bit_aligned _ _ _ _ _ _)), Hw.
  - eapply keeps_write_bytes, Hw.
  - eapply (keeps_pad _ (keeps_write_bytes _ _ _)), Hw.
Qed.
Lemma set_view_app : forall m f (b s : bytes) x, l_byte_offset (ff_loc f) + l_byte_size (ff_loc f) <= len b ->
  leaves_rest (set_view (E:=E) m f b x) (set_view m f (b ++ s)%list x) s.
Proof.
  intros m f b s x H. pose proof (set_raw_app m f b s) as R. unfold set_view. unfold set_raw in R.
  destruct (gen_fixed f) as [a|e|]; [|reflexivity..]. cbn [bind] in *.
  destruct (view_set f (ac_raw a) x) as [v|e|]; [|reflexivity..]. cbn [bind]. apply R, H.
Qed.
Lemma arr_get_app : forall m f (b s : bytes) i, l_byte_offset (fa_loc f) + l_byte_size (fa_loc f) <= len b ->
  arr_get (E:=E) m f (b ++ s)%list i = arr_get m f b i.
Proof. intros m f b s i H. unfold arr_get, arr_window. rewrite slice_app by exact H. reflexivity. Qed.
Lemma arr_set_app : forall m f (b s : bytes) i v, l_byte_offset (fa_loc f) + l_byte_size (fa_loc f) <= len b ->
  leaves_rest (arr_set (E:=E) m f b i v) (arr_set m f (b ++ s)%list i v) s.
Proof.
  intros m f b s i v H. unfold arr_set. destruct (item_bit_size (E:=E) f) as [ibs|e|]; [|reflexivity..]. cbn [bind].
  apply update_app; [exact H|]. apply keeps_array.
Qed.
End Windows.

Theorem old_accessors : forall E m mr endi enums structs id d s i (old rest : bytes),
  structure_from_model m endi enums structs id d = Ok s -> no_overflow m structs d -> s_byte_size s <= len old ->
  (forall f, nth_error (s_fields s) i = Some (FFixed f) ->
     get_raw (E:=E) mr f (old ++ rest)%list = get_raw mr f old /\
     get_view (E:=E) mr f (old ++ rest)%list = get_view mr f old /\
     (forall v, leaves_rest (set_raw (E:=E) mr f old v) (set_raw mr f (old ++ rest)%list v) rest) /\
     (forall x, leaves_rest (set_view (E:=E) mr f old x) (set_view mr f (old ++ rest)%list x) rest)) /\
  (forall f, nth_error (s_fields s) i = Some (FArray f) -> forall k,
     arr_get (E:=E) mr f (old ++ rest)%list k = arr_get mr f old k /\
     (forall v, leaves_rest (arr_set (E:=E) mr f old k v) (arr_set mr f (old ++ rest)%list k v) rest)) /\
  (forall path,
     path_get (E:=E) mr s (i :: path) (old ++ rest)%list = path_get mr s (i :: path) old /\
     (forall v, leaves_rest (path_set (E:=E) mr s (i :: path) old v) (path_set mr s (i :: path) (old ++ rest)%list v) rest)).
Proof.
  intros E m mr endi enums structs id d s i old rest H Ho Hl.
  assert (W : forall f, nth_error (s_fields s) i = Some f -> l_byte_offset (field_loc f) + l_byte_size (field_loc f) <= len old).
  { intros f Hf. pose proof (window_in_bounds m endi enums structs id d s i f H Ho Hf). lia. }
  split; [|split].
  - intros f Hf. apply W in Hf. cbn [field_loc] in Hf. split; [apply get_raw_app, Hf|]. split; [apply get_view_app, Hf|].
    split; intro; [apply set_raw_app, Hf|apply set_view_app, Hf].
  - intros f Hf k. apply W in Hf. cbn [field_loc] in Hf. split; [apply arr_get_app, Hf|]. intro. apply arr_set_app, Hf.
  - intros path. cbn [path_get path_set]. destruct (nth_error (s_fields s) i) as [f|] eqn:Hf; [|split; reflexivity].
    specialize (W f eq_refl). destruct f as [f|f|n r loc]; cbn [field_loc] in W.
    + destruct path; [|split; reflexivity]. split; [apply get_raw_app, W|]. intro. apply set_raw_app, W.
    + split; reflexivity.
    + rewrite slice_app by exact W. split; [reflexivity|]. intro v. apply update_app; [exact W|]. apply keeps_path.
Qed.

(** ** Input in pieces *)

Section Final.
Lemma fin_refl : forall A (x : rres A), final_result x x.
Proof. intros A [a|[]|]; cbn; auto. Qed.
Lemma fin_bind : forall A B (x y : rres A) (f g : A -> rres B), final_result x y ->
  (forall a, x = Ok a -> final_result (f a) (g a)) -> final_result (bind x f) (bind y g).
Proof.
  intros A B x y f g H Hf. destruct x as [a|e|]; cbn [final_result bind] in *.
  - subst y. apply Hf. reflexivity.
  - destruct e; try subst y; cbn; auto.
  - exact I.
Qed.
Lemma fin_slice : forall (b s : bytes) lo hi, final_result (slice b lo hi) (slice (b ++ s)%list lo hi).
Proof.
  intros b s lo hi. destruct (slice (E:=rerror) b lo hi) as [w|e|] eqn:H; [| |exact I].
  - rewrite slice_app by (apply slice_len in H; lia). exact H.
  - unfold slice in H. destruct (_ && _); discriminate.
Qed.
Lemma fin_from : forall A (b s : bytes) lo (f g : bytes -> rres A),
  (forall d, len (d ++ s)%list <= len (b ++ s)%list -> final_result (f d) (g (d ++ s)%list)) ->
  final_result (bind (slice_from b lo) f) (bind (slice_from (b ++ s)%list lo) g).
Proof.
  intros A b s lo f g H. unfold slice_from. rewrite len_app. destruct (lo <=? len b) eqn:C; [|exact I].
  replace (lo <=? len b + len s) with true by lia. cbn [bind].
  replace (skipn (N.to_nat lo) (b ++ s)%list) with (skipn (N.to_nat lo) b ++ s)%list.
  - apply H. rewrite !len_app, len_skipn. lia.
  - rewrite skipn_app. unfold len in C. replace (N.to_nat lo - length b)%nat with 0%nat by lia. reflexivity.
Qed.
End Final.

Definition final {A} (r : reader A) : Prop := forall b s, len (b ++ s)%list < 2 ^ 64 -> final_result (r b) (r (b ++ s)%list).

Lemma final_rmap : forall A B (f : A -> B) r, final r -> final (rmap f r).
Proof. intros A B f r H b s Hl. unfold rmap. apply fin_bind; [apply H, Hl|]. intros [? ?] _. apply fin_refl. Qed.
Lemma final_value : forall e ty, final (value_reader e ty).
Proof.
  intros e ty b s Hl. unfold value_reader, value_from_slice. rewrite len_app. destruct (len b <? N.of_nat (get_byte_size ty)) eqn:C; [exact I|].
  replace (len b + len s <? N.of_nat (get_byte_size ty)) with false by lia. apply fin_bind; [|intros; apply fin_refl].
  unfold read_bytes. rewrite app_length. unfold len in C.
  replace (length b <? get_byte_size ty)%nat with false by lia.
  replace (length b + length s <? get_byte_size ty)%nat with false by lia. rewrite firstn_app.
  replace (get_byte_size ty - length b)%nat with 0%nat by lia. rewrite firstn_O, app_nil_r. apply fin_refl.
Qed.
Lemma find_zero_app : forall b s i p, find_zero i b = Some p -> find_zero i (b ++ s)%list = Some p.
Proof. induction b as [|x b IH]; intros s i p H; [discriminate|]. cbn [app find_zero] in *. destruct (x =? 0); auto. Qed.
Lemma final_loop : forall A m (item : reader A), final item -> forall n b s t, len (b ++ s)%list < 2 ^ 64 ->
  final_result (list_loop m item b n t) (list_loop m item (b ++ s)%list n t).
Proof.
  intros A m item H n. induction n as [|n IH]; intros b s t Hl; cbn [list_loop]; [apply fin_refl|].
  apply fin_from. intros d Hd. apply fin_bind; [apply H; lia|]. intros [k v] _. apply fin_bind; [apply fin_refl|].
  intros t' _. apply IH, Hl.
Qed.
Lemma final_ref : forall m emb r, (forall y, r = RMessage y -> final (read_msg m emb y)) -> final (read_ref m emb r).
Proof.
  intros m emb [st|x] H; [|apply (H x eq_refl)]. apply final_rmap. intros b s Hl. unfold struct_from_slice. rewrite len_app.
  destruct (len b <? s_byte_size st) eqn:C; [exact I|]. replace (len b + len s <? s_byte_size st) with false by lia.
  apply fin_bind; [apply fin_slice|]. intros; apply fin_refl.
Qed.
Lemma final_optional : forall m opt r, final r -> final (read_optional m opt r).
Proof.
  intros m [] r H; [|exact H]. apply final_rmap. intros b s Hl. unfold optional_from_slice. rewrite len_app.
  destruct (len b <? 1) eqn:C; [exact I|]. replace (len b + len s <? 1) with false by lia.
  destruct b as [|fl b]; [discriminate|]. cbn [app nth_error unwrap bind]. destruct (0 <? fl); [|apply fin_refl].
  apply (fin_from _ (fl :: b) s). intros d Hd. apply fin_bind; [apply H; cbn [app] in *; lia|]. intros [k v] _. apply fin_refl.
Qed.

Lemma final_ty : forall m emb e endi prev t, t <> TPayload -> (forall ty x, t = TList ty x -> e = true) ->
  (forall y, inside t y -> final (read_msg m emb y)) -> final (read_ty m emb e endi prev t).
Proof.
  intros m emb e endi prev t Hp Hlist H. destruct t as [ty|r| |ty|ty st|u on idx|ty x|].
  - apply final_rmap, final_value.
  - rewrite read_ty_ref. apply final_ref. intros y ->. apply H. constructor.
  - apply final_rmap. intros b s Hl. unfold nts_from_slice. destruct (find_zero 0 b) as [p|] eqn:F; [|exact I].
    rewrite (find_zero_app _ s _ _ F). apply fin_bind; [apply fin_slice|]. intros; apply fin_refl.
  - apply final_rmap. intros b s Hl. unfold varchar_from_slice. apply fin_bind; [apply final_value, Hl|]. intros [c n] _.
    apply fin_bind; [apply fin_refl|]. intros q _. apply fin_bind; [apply fin_slice|]. intros; apply fin_refl.
  - apply final_rmap. intros b s Hl. unfold array_from_slice. apply fin_bind; [apply final_value, Hl|]. intros [c n] _.
    apply fin_bind; [apply fin_refl|]. intros q _. apply fin_bind; [apply fin_refl|]. intros t _. rewrite len_app.
    destruct (len b <? t) eqn:C; [exact I|]. replace (len b + len s <? t) with false by lia.
    apply fin_bind; [apply fin_slice|]. intros; apply fin_refl.
  - rewrite read_ty_union. intros b s Hl. rewrite !read_union_eq. apply fin_bind; [apply fin_refl|]. intros disc _.
    destruct (find_case disc 0 (u_cases u)) as [[i c]|] eqn:F; [|apply fin_refl]. apply find_case_in in F.
    destruct F as (Hin & _). destruct (uc_item c) as [r|] eqn:Er; [|apply fin_refl].
    apply fin_bind; [|intros [? ?] _; apply fin_refl]. apply final_ref; [|exact Hl]. intros y ->. apply H. econstructor; eauto.
  - rewrite read_ty_list. apply final_rmap. rewrite (Hlist _ _ eq_refl). intros b s Hl. unfold list_from_slice.
    apply fin_bind; [apply final_value, Hl|]. intros [c n] _. apply fin_from. intros d Hd.
    apply fin_bind; [apply final_loop; [apply H; constructor|lia]|]. intros t _. apply fin_bind; [apply fin_refl|]. intros q _.
    apply fin_bind; [apply fin_slice|]. intros; apply fin_refl.
  - contradiction.
Qed.

Lemma final_fields : forall m emb e fs off prev b s,
  (forall g, In g fs -> mf_ty g <> TPayload /\ (forall ty x, mf_ty g = TList ty x -> e = true) /\
     forall y, inside (mf_ty g) y -> final (read_msg m emb y)) ->
  len (b ++ s)%list < 2 ^ 64 -> final_result (read_fields m emb e b fs off prev) (read_fields m emb e (b ++ s)%list fs off prev).
Proof.
  intros m emb e. induction fs as [|[nm ty opt sz endi] fs IH]; intros off prev b s H Hl; cbn [read_fields]; [apply fin_refl|].
  destruct (H _ (or_introl eq_refl)) as (H1 & H2 & H3). cbn [mf_ty] in *.
  apply fin_from. intros d Hd. apply fin_bind; [apply final_optional; [apply final_ty; assumption|lia]|].
  intros [k v] _. apply fin_bind; [apply fin_refl|]. intros off' _. apply IH; [|exact Hl]. intros g Hg. apply H. right. exact Hg.
Qed.

Lemma self_delimiting_field : forall emb x g, self_delimiting emb x -> In g (m_fields x) ->
  mf_ty g <> TPayload /\ (forall ty y, mf_ty g = TList ty y -> emb (m_id x) = true) /\
  forall y, inside (mf_ty g) y -> self_delimiting emb y.
Proof.
  intros emb x g H Hg. pose proof (H _ g (part_here emb x _ g Hg eq_refl)) as Hh.
  split; [intro C; rewrite C in Hh; contradiction|]. split; [intros ty y C; rewrite C in Hh; exact Hh|].
  intros y Hy e f Hp. apply (H e f). eapply part_deep; eauto.
Qed.

Theorem read_final : forall m emb x, self_delimiting emb x -> final (read_msg m emb x).
Proof.
  intros m emb. apply (message_ind_inside (fun x => self_delimiting emb x -> final (read_msg m emb x))).
  intros x IH Hd b s Hl. rewrite !read_msg_eq. apply fin_bind; [|intros [? ?] _; apply fin_refl].
  apply final_fields; [|exact Hl]. intros g Hg. destruct (self_delimiting_field emb x g Hd Hg) as (H1 & H2 & H3).
  split; [exact H1|]. split; [exact H2|]. intros y Hy. apply (IH g y Hg Hy), H3, Hy.
Qed.

Theorem read_prefix : forall m emb x b n v c, len b < 2 ^ 64 -> read_msg m emb x b = Ok (n, v) -> n <= c -> c <= len b ->
  read_msg m emb x (firstn (N.to_nat c) b) = Ok (n, v).
Proof. intros m emb x b n v c Hl H Hn Hc. apply (read_local m emb x b n v c Hl H Hn Hc). Qed.

Theorem read_consumed : forall m emb x b n v s, self_delimiting emb x -> len b < 2 ^ 64 -> n + len s < 2 ^ 64 ->
  read_msg m emb x b = Ok (n, v) -> read_msg m emb x (firstn (N.to_nat n) b ++ s)%list = Ok (n, v).
Proof.
  intros m emb x b n v s Hd Hl Hs H. pose proof (read_bounded m emb x b n v Hl H) as Hn.
  pose proof (read_prefix m emb x b n v n Hl H ltac:(lia) Hn) as Hp.
  pose proof (read_final m emb x Hd (firstn (N.to_nat n) b) s) as F. rewrite Hp in F. apply F.
  rewrite len_app, len_firstn' by exact Hn. exact Hs.
Qed.
