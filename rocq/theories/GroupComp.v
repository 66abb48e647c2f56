(** C91: members of a message that are put into a message of their own. The compiler. *)

From Coq Require Import Arith NArith ZArith Ascii String List Bool Lia ZifyBool ZifyN ZifyNat.
From Verif Require Import Base Schema Codec Compiler Access SpecStruct StructFacts SpecComp CompFacts Runtime Gen SpecWire SpecRun
  MsgFacts LinkThms ItemsThms EvolveMore GroupThms SpecGroup.
Import ListNotations.
Local Open Scope N_scope.
Local Open Scope list_scope.

(** ** Looking for members *)
Lemma find_app : forall n l1 l2 k, find_mfield n k (l1 ++ l2) =
  match find_mfield n k l1 with Some r => Some r | None => find_mfield n (k + length l1) l2 end.
Proof.
  intros n. induction l1 as [|f l1 IH]; intros l2 k; cbn [app find_mfield length].
  - rewrite Nat.add_0_r. reflexivity.
  - destruct (String.eqb (mf_name f) n); [reflexivity|]. rewrite IH. replace (S k + length l1)%nat with (k + S (length l1))%nat by lia. reflexivity.
Qed.
Lemma find_map : forall n h l k, find_mfield n k (map (reindex h) l) =
  match find_mfield n k l with Some (i, f) => Some (i, reindex h f) | None => None end.
Proof.
  intros n h. induction l as [|f l IH]; intro k; cbn [map find_mfield]; [reflexivity|]. change (mf_name (reindex h f)) with (mf_name f).
  destruct (String.eqb (mf_name f) n); [reflexivity|apply IH].
Qed.
Lemma find_shift : forall n l k d, find_mfield n (k + d) l =
  match find_mfield n k l with Some (i, f) => Some ((i + d)%nat, f) | None => None end.
Proof.
  intros n. induction l as [|f l IH]; intros k d; cbn [find_mfield]; [reflexivity|].
  destruct (String.eqb (mf_name f) n); [reflexivity|]. apply (IH (S k) d).
Qed.
Lemma find_none : forall n l k, ~ In n (map mf_name l) -> find_mfield n k l = None.
Proof.
  intros n. induction l as [|f l IH]; intros k H; cbn [find_mfield]; [reflexivity|].
  destruct (String.eqb_spec (mf_name f) n) as [E|E]; [destruct H; left; exact E|]. apply IH. intro K. apply H. right. exact K.
Qed.
Lemma find_some : forall n l k i f, find_mfield n k l = Some (i, f) -> (k <= i < k + length l)%nat /\ In f l /\ mf_name f = n.
Proof.
  intros n. induction l as [|g l IH]; intros k i f H; cbn [find_mfield] in H; [discriminate|].
  destruct (String.eqb_spec (mf_name g) n) as [E|E].
  - injection H as <- <-. cbn [length]. split; [lia|]. split; [left; reflexivity|exact E].
  - apply IH in H. destruct H as (H1 & H2 & H3). cbn [length]. split; [lia|]. split; [right; exact H2|exact H3].
Qed.
Lemma names_reindex : forall h l, map mf_name (map (reindex h) l) = map mf_name l.
Proof. intros h l. rewrite map_map. reflexivity. Qed.

(** ** One member *)
Lemma mfield_name : forall env fs v f k, mfield_from_model env fs v = Ok (f, k) -> mf_name f = smf_name v.
Proof.
  intros env fs v f k H. unfold mfield_from_model in H. destruct (smf_info v) as [t|n t|[n|]| |on t].
  - apply bind_ok in H. destruct H as ([s|x] & _ & H); [destruct (flattened s)|]; injection H as <- <-; reflexivity.
  - apply bind_ok in H. destruct H as (r & _ & H). apply bind_ok in H. destruct H as (ty & _ & H). destruct r; injection H as <- <-; reflexivity.
  - apply bind_ok in H. destruct H as (ty & _ & H). injection H as <- <-. reflexivity.
  - injection H as <- <-. reflexivity.
  - injection H as <- <-. reflexivity.
  - apply bind_ok in H. destruct H as ([i g] & _ & H). apply bind_ok in H. destruct H as (r & _ & H).
    destruct (mf_ty g) as [|[s|]| | | | | |]; try discriminate H. destruct (_ =? _); [|discriminate H]. injection H as <- <-. reflexivity.
Qed.

(** A member with other members before it: only unions notice. *)
Lemma mfield_other : forall env env' fs fs' h v f k,
  pe_endianness env' = pe_endianness env -> pe_unions env' = pe_unions env ->
  (forall n, refers v n -> referenced_lookup (pe_structs env') (pe_messages env') n = referenced_lookup (pe_structs env) (pe_messages env) n) ->
  (forall n i g s, find_mfield n 0 fs = Some (i, g) -> mf_ty g = TRef (RStruct s) ->
     exists g', find_mfield n 0 fs' = Some (h i, g') /\ mf_ty g' = mf_ty g /\ mf_name g' = mf_name g) ->
  mfield_from_model env fs v = Ok (f, k) -> mfield_from_model env' fs' v = Ok (reindex h f, k).
Proof.
  intros env env' fs fs' h v f k E U L F H. unfold mfield_from_model, refers in *. rewrite E, U. destruct (smf_info v) as [t|n t|[n|]| |on t].
  - rewrite (L t eq_refl). destruct (referenced_lookup (pe_structs env) (pe_messages env) t) as [[s|x]|]; cbn [ok_or bind] in *; [| |discriminate].
    + destruct (flattened s); injection H as <- <-; reflexivity.
    + injection H as <- <-. reflexivity.
  - rewrite (L t eq_refl). destruct (referenced_lookup (pe_structs env) (pe_messages env) t) as [r|]; cbn [ok_or bind] in *; [|discriminate].
    destruct (fixed_from_max_value n) as [ty| |]; cbn [bind] in *; [|discriminate..]. destruct r; injection H as <- <-; reflexivity.
  - destruct (fixed_from_max_value n) as [ty| |]; cbn [bind] in *; [|discriminate..]. injection H as <- <-. reflexivity.
  - injection H as <- <-. reflexivity.
  - injection H as <- <-. reflexivity.
  - destruct (find_mfield on 0 fs) as [[i g]|] eqn:Eg; cbn [ok_or bind] in H; [|discriminate].
    destruct (sget t (pe_unions env)) as [r|]; cbn [ok_or bind] in *; [|discriminate].
    destruct (mf_ty g) as [|[s|]| | | | | |] eqn:Et; try discriminate H.
    destruct (F _ _ _ _ Eg Et) as (g' & E1 & E2 & E3). rewrite E1. cbn [ok_or bind]. rewrite E2, E3, Et.
    destruct (_ =? _); [|discriminate H]. injection H as <- <-. reflexivity.
Qed.

(** The structure a union depends on is one of the members before it. *)
Lemma mfield_union : forall env fs v f k u on i, mfield_from_model env fs v = Ok (f, k) -> mf_ty f = TUnion u on i ->
  exists n g s, find_mfield n 0 fs = Some (i, g) /\ mf_ty g = TRef (RStruct s).
Proof.
  intros env fs v f k u on i H Hu. unfold mfield_from_model in H. destruct (smf_info v) as [t|n t|[n|]| |on' t].
  - apply bind_ok in H. destruct H as ([s|x] & _ & H); [destruct (flattened s)|]; injection H as <- <-; discriminate.
  - apply bind_ok in H. destruct H as (r & _ & H). apply bind_ok in H. destruct H as (ty & _ & H). destruct r; injection H as <- <-; discriminate.
  - apply bind_ok in H. destruct H as (ty & _ & H). injection H as <- <-. discriminate.
  - injection H as <- <-. discriminate.
  - injection H as <- <-. discriminate.
  - destruct (find_mfield on' 0 fs) as [[j g]|] eqn:Eg; cbn [ok_or bind] in H; [|discriminate].
    apply bind_ok in H. destruct H as (r & _ & H).
    destruct (mf_ty g) as [|[s|]| | | | | |] eqn:Et; try discriminate H. destruct (_ =? _); [|discriminate H]. injection H as <- <-.
    cbn in Hu. injection Hu as _ _ <-. exists on', g, s. auto.
Qed.

(** ** All members *)
Definition step_count (n : N) (s : size_info) : N := if is_element_dyn_sized s then n + 1 else n.
Lemma mfields_step : forall env fs n b mk v l r, mfields_from_model env fs n b mk (v :: l) = Ok r ->
  exists f k, mfield_from_model env fs v = Ok (f, k) /\
    (0 < n -> is_dyn_sized (mf_size f) = false /\ is_element_dyn_sized (mf_size f) = false) /\ step_count n (mf_size f) <= 1 /\
    mfields_from_model env (fs ++ [f]) (step_count n (mf_size f)) (b || is_dyn_sized (mf_size f)) (mk ++ k) l = Ok r.
Proof.
  intros env fs n b mk v l r H. cbn [mfields_from_model] in H. apply bind_ok in H. destruct H as ([f k] & Hf & H). exists f, k.
  split; [exact Hf|]. fold (step_count n (mf_size f)) in H.
  destruct ((0 <? n) && (is_dyn_sized (mf_size f) || is_element_dyn_sized (mf_size f))) eqn:E; [discriminate|].
  destruct (1 <? step_count n (mf_size f)) eqn:E2; [discriminate|]. split; [|split; [lia|exact H]].
  intro K. destruct (is_dyn_sized (mf_size f)), (is_element_dyn_sized (mf_size f)); cbn in E; split; try reflexivity; lia.
Qed.
Lemma mfields_make : forall env fs n b mk v l f k, mfield_from_model env fs v = Ok (f, k) ->
  (0 < n -> is_dyn_sized (mf_size f) = false /\ is_element_dyn_sized (mf_size f) = false) -> step_count n (mf_size f) <= 1 ->
  mfields_from_model env fs n b mk (v :: l) =
  mfields_from_model env (fs ++ [f]) (step_count n (mf_size f)) (b || is_dyn_sized (mf_size f)) (mk ++ k) l.
Proof.
  intros env fs n b mk v l f k Hf H1 H2. cbn [mfields_from_model]. rewrite Hf. cbn [bind]. fold (step_count n (mf_size f)).
  replace ((0 <? n) && (is_dyn_sized (mf_size f) || is_element_dyn_sized (mf_size f))) with false.
  2:{ symmetry. apply andb_false_iff. destruct (N.ltb_spec 0 n) as [K|K]; [right|left; reflexivity]. destruct (H1 K) as (-> & ->). reflexivity. }
  replace (1 <? step_count n (mf_size f)) with false by lia. reflexivity.
Qed.
Lemma mfields_facts : forall env l fs n b mk fs' n' b' mk', n <= 1 -> mfields_from_model env fs n b mk l = Ok (fs', n', b', mk') ->
  n <= n' /\ n' <= 1 /\ (b = true -> b' = true) /\
  exists gs, fs' = fs ++ gs /\ map mf_name gs = map smf_name l /\
    forall f u on i, In f gs -> mf_ty f = TUnion u on i -> (i < length fs')%nat.
Proof.
  intros env. induction l as [|v l IH]; intros fs n b mk fs' n' b' mk' Hn H.
  - cbn in H. injection H as <- <- <- <-. split; [lia|]. split; [exact Hn|]. split; [auto|]. exists []. rewrite app_nil_r.
    split; [reflexivity|]. split; [reflexivity|]. intros f u on i [].
  - apply mfields_step in H. destruct H as (f & k & Hf & _ & H2 & H). apply IH in H; [|exact H2].
    destruct H as (G1 & G2 & G3 & gs & -> & G4 & G5).
    assert (n <= step_count n (mf_size f)) by (unfold step_count; destruct (is_element_dyn_sized _); lia).
    split; [lia|]. split; [exact G2|]. split; [intros ->; apply G3; reflexivity|]. exists (f :: gs). split; [rewrite <- app_assoc; reflexivity|].
    split; [cbn [map]; rewrite G4; f_equal; eapply mfield_name; exact Hf|].
    intros g u on i [<-|Hg] Hu; [|exact (G5 _ _ _ _ Hg Hu)].
    destruct (mfield_union _ _ _ _ _ _ _ _ Hf Hu) as (nm & g & s & Eg & _). apply find_some in Eg. rewrite !app_length. cbn [length]. lia.
Qed.

(** Members of the group, behind other members. *)
Lemma members_inside : forall env fb dc dyn mk0, dc <= 1 -> forall l G dg b mk G' dy b' mk',
  (forall v, In v l -> ~ In (smf_name v) (map mf_name fb)) -> (forall f, In f G -> ~ In (mf_name f) (map mf_name fb)) ->
  dg <= 1 -> mfields_from_model env G dg b mk l = Ok (G', dy, b', mk') ->
  (0 < dc -> b' = false /\ dy = 0) ->
  mfields_from_model env (fb ++ map (reindex (Nat.add (length fb))) G) (dc + dg) (dyn || b) (mk0 ++ mk) l
  = Ok (fb ++ map (reindex (Nat.add (length fb))) G', dc + dy, dyn || b', mk0 ++ mk').
Proof.
  intros env fb dc dyn mk0 Hdc. induction l as [|v l IH]; intros G dg b mk G' dy b' mk' N1 N2 Hdg H C.
  - cbn in *. injection H as <- <- <- <-. reflexivity.
  - apply mfields_step in H. destruct H as (f & k & Hf & S1 & S2 & H).
    pose proof (mfield_name _ _ _ _ _ Hf) as Nf.
    pose proof (mfields_facts _ _ _ _ _ _ _ _ _ _ S2 H) as (F1 & F2 & F3 & _).
    assert (Hf' : mfield_from_model env (fb ++ map (reindex (Nat.add (length fb))) G) v = Ok (reindex (Nat.add (length fb)) f, k)).
    { apply (mfield_other env env G); auto. intros n i g s Eg Et. pose proof (find_some _ _ _ _ _ Eg) as (_ & Ig & <-).
      exists (reindex (Nat.add (length fb)) g). rewrite find_app, find_none by (apply N2, Ig). rewrite Nat.add_0_l.
      change (length fb) with (0 + length fb)%nat at 2. rewrite (find_shift _ _ 0 (length fb)), find_map, Eg.
      split; [rewrite Nat.add_comm; reflexivity|]. split; [|reflexivity]. cbn [reindex mf_ty]. rewrite Et. reflexivity. }
    rewrite (mfields_make _ _ _ _ _ _ _ _ _ Hf').
    + change (mf_size (reindex (Nat.add (length fb)) f)) with (mf_size f).
      replace (step_count (dc + dg) (mf_size f)) with (dc + step_count dg (mf_size f)) by (unfold step_count; destruct (is_element_dyn_sized _); lia).
      rewrite <- orb_assoc, <- (app_assoc fb), <- (app_assoc mk0).
      change [reindex (Nat.add (length fb)) f] with (map (reindex (Nat.add (length fb))) [f]). rewrite <- map_app.
      apply IH; [| | |exact H|exact C].
      * intros v' Hv. apply N1. right. exact Hv.
      * intros g Hg. apply in_app_or in Hg. destruct Hg as [Hg|[<-|[]]]; [apply N2, Hg|]. rewrite Nf. apply N1. left. reflexivity.
      * exact S2.
    + change (mf_size (reindex (Nat.add (length fb)) f)) with (mf_size f). intro K.
      destruct (N.eq_dec dg 0) as [->|Z]; [|apply S1; lia]. destruct C as (C1 & C2); [lia|].
      split; [destruct (is_dyn_sized (mf_size f)) eqn:E; [|reflexivity]; rewrite F3 in C1 by apply orb_true_r; discriminate C1|].
      unfold step_count in F1. destruct (is_element_dyn_sized (mf_size f)); [lia|reflexivity].
    + change (mf_size (reindex (Nat.add (length fb)) f)) with (mf_size f). destruct (N.eq_dec dc 0) as [->|Z].
      * replace (0 + dg) with dg by lia. exact S2.
      * destruct C as (_ & C2); [lia|]. unfold step_count in *. destruct (is_element_dyn_sized (mf_size f)); lia.
Qed.

(** Members behind the group. *)
Lemma members_behind : forall env env' fb gf Y g, 
  pe_endianness env' = pe_endianness env -> pe_unions env' = pe_unions env ->
  (forall n, n <> g -> referenced_lookup (pe_structs env') (pe_messages env') n = referenced_lookup (pe_structs env) (pe_messages env) n) ->
  (forall s, mf_ty gf <> TRef (RStruct s)) ->
  forall l A dc dyn mk mk2 G' dc' dyn' mk', dc <= 1 ->
  (forall v, In v l -> ~ refers v g /\ ~ In (smf_name v) (map mf_name Y)) -> (forall f, In f A -> ~ In (mf_name f) (map mf_name Y)) ->
  mfields_from_model env' (fb ++ gf :: A) dc dyn mk l = Ok (G', dc', dyn', mk') ->
  exists A' K, G' = fb ++ gf :: A ++ A' /\ mk' = mk ++ K /\
    (forall f u on i, In f A' -> mf_ty f = TUnion u on i -> i <> length fb) /\
    mfields_from_model env (fb ++ Y ++ map (reindex (behind (length fb) (length Y))) A) dc dyn mk2 l
    = Ok (fb ++ Y ++ map (reindex (behind (length fb) (length Y))) (A ++ A'), dc', dyn', mk2 ++ K).
Proof.
  intros env env' fb gf Y g He Hu Hr Hg. set (h := behind (length fb) (length Y)).
  induction l as [|v l IH]; intros A dc dyn mk mk2 G' dc' dyn' mk' Hdc N1 N2 H.
  - cbn in *. injection H as <- <- <- <-. exists [], []. rewrite !app_nil_r. repeat split; try reflexivity. intros f u on i [].
  - apply mfields_step in H. destruct H as (f & k & Hf & S1 & S2 & H). pose proof (mfield_name _ _ _ _ _ Hf) as Nf.
    assert (F : forall n i g' s, find_mfield n 0 (fb ++ gf :: A) = Some (i, g') -> mf_ty g' = TRef (RStruct s) ->
      i <> length fb /\ exists g2, find_mfield n 0 (fb ++ Y ++ map (reindex h) A) = Some (h i, g2) /\ mf_ty g2 = mf_ty g' /\ mf_name g2 = mf_name g').
    { intros n i g' s Eg Et. rewrite find_app in *. destruct (find_mfield n 0 fb) as [[j g1]|] eqn:E1.
      - injection Eg as <- <-. pose proof (find_some _ _ _ _ _ E1) as (L & _). split; [lia|]. exists g1. unfold h, behind.
        replace (j <? length fb)%nat with true by lia. auto.
      - cbn [find_mfield] in Eg. destruct (String.eqb (mf_name gf) n); [injection Eg as <- <-; destruct (Hg _ Et)|].
        replace (S (0 + length fb)) with (0 + S (length fb))%nat in Eg by lia. rewrite find_shift in Eg.
        destruct (find_mfield n 0 A) as [[j g1]|] eqn:E2; [|discriminate]. injection Eg as <- <-.
        pose proof (find_some _ _ _ _ _ E2) as (L & I1 & <-). split; [lia|]. rewrite find_app, find_none by (apply N2, I1).
        rewrite find_map. rewrite <- Nat.add_assoc, find_shift, E2. exists (reindex h g1). split; [|split; [cbn [reindex mf_ty]; rewrite Et; reflexivity|reflexivity]].
        f_equal. f_equal. unfold h, behind. replace (j + S (length fb) <? length fb)%nat with false by lia. lia. }
    assert (Hf' : mfield_from_model env (fb ++ Y ++ map (reindex h) A) v = Ok (reindex h f, k)).
    { apply (mfield_other env' env (fb ++ gf :: A)); [symmetry; exact He|symmetry; exact Hu| | |exact Hf].
      - intros n Hn. symmetry. apply Hr. intros ->. apply (proj1 (N1 v (or_introl eq_refl))). exact Hn.
      - intros n i g' s Eg Et. apply (F n i g' s Eg Et). }
    rewrite (mfields_make _ _ _ _ _ _ _ _ _ Hf' S1 S2).
    replace ((fb ++ gf :: A) ++ [f]) with (fb ++ gf :: (A ++ [f])) in H by (rewrite <- app_assoc; reflexivity).
    apply (IH _ _ _ _ (mk2 ++ k)) in H; [|exact S2| |].
    + destruct H as (A' & K & -> & -> & U & H). exists (f :: A'), (k ++ K). split; [rewrite <- !app_assoc; reflexivity|]. split; [rewrite <- !app_assoc; reflexivity|]. split.
      * intros f' u on i [<-|Hf2] Ht; [|exact (U _ _ _ _ Hf2 Ht)]. destruct (mfield_union _ _ _ _ _ _ _ _ Hf Ht) as (n & g' & s & Eg & Et). apply (F n i g' s Eg Et).
      * change (mf_size (reindex h f)) with (mf_size f). rewrite map_app in H. cbn [map] in H.
        replace ((A ++ [f]) ++ A') with (A ++ f :: A') in H by (rewrite <- app_assoc; reflexivity). rewrite <- !app_assoc in *. exact H.
    + intros v' Hv. apply N1. right. exact Hv.
    + intros g' Hg'. apply in_app_or in Hg'. destruct Hg' as [Hg'|[<-|[]]]; [apply N2, Hg'|]. rewrite Nf. apply (proj2 (N1 v (or_introl eq_refl))).
Qed.

(** ** The two messages *)
Definition with_message (env : proto_env) (n : string) (y : message) : proto_env :=
  {| pe_endianness := pe_endianness env; pe_structs := pe_structs env; pe_messages := sinsert n y (pe_messages env); pe_unions := pe_unions env |}.

Lemma lookup_other : forall env g y n, n <> g ->
  referenced_lookup (pe_structs (with_message env g y)) (pe_messages (with_message env g y)) n = referenced_lookup (pe_structs env) (pe_messages env) n.
Proof.
  intros env g y n H. unfold referenced_lookup, with_message. cbn [pe_structs pe_messages]. rewrite sget_sinsert.
  destruct (String.eqb_spec n g); [contradiction|reflexivity].
Qed.
Lemma reindex_id : forall f, reindex (fun i => i) f = f.
Proof. intros [nm ty opt sz e]. unfold reindex. cbn. destruct ty; reflexivity. Qed.
Lemma members_before : forall env g y l fs dc dyn mk r, (forall v, In v l -> ~ refers v g) ->
  mfields_from_model (with_message env g y) fs dc dyn mk l = Ok r -> mfields_from_model env fs dc dyn mk l = Ok r.
Proof.
  intros env g y. induction l as [|v l IH]; intros fs dc dyn mk r N1 H; [exact H|].
  apply mfields_step in H. destruct H as (f & k & Hf & S1 & S2 & H).
  rewrite (mfields_make env fs dc dyn mk v l f k); [|..|exact S1|exact S2].
  - apply IH; [|exact H]. intros v' Hv. apply N1. right. exact Hv.
  - rewrite <- (reindex_id f). apply (mfield_other (with_message env g y) env fs fs); try reflexivity; [| |exact Hf].
    + intros n Hn. symmetry. apply lookup_other. intros ->. apply (N1 v (or_introl eq_refl)), Hn.
    + intros n i g' s Eg _. exists g'. auto.
Qed.

Section Shape.
Variables (x y z : message) (nb : nat).
Record shape (fb fa : list mfield) (gn : string) (gs : size_info) (ge : endianness) : Prop := {
  sh_before : length fb = nb;
  sh_outer : m_fields x = fb ++ MkMField gn (TRef (RMessage y)) false gs ge :: fa;
  sh_flat : m_fields z = fb ++ map (reindex (Nat.add (length fb))) (m_fields y) ++ map (reindex (behind (length fb) (length (m_fields y)))) fa;
  sh_behind : forall f u on i, In f fa -> mf_ty f = TUnion u on i -> i <> length fb;
  sh_in_before : forall f u on i, In f fb -> mf_ty f = TUnion u on i -> (i < length fb)%nat;
  sh_in_group : forall f u on i, In f (m_fields y) -> mf_ty f = TUnion u on i -> (i < length (m_fields y))%nat }.
End Shape.

Theorem message_grouped : forall before members after grp outer flat env i j k y ky x kx,
  grouped before members after grp outer flat -> sget (sm_name grp) (pe_structs env) = None ->
  message_from_model env i grp = Ok (y, ky) -> message_from_model (with_message env (sm_name grp) y) j outer = Ok (x, kx) ->
  exists z kz, message_from_model env k flat = Ok (z, kz) /\ m_id y = i /\ m_id x = j /\ m_id z = k /\ m_name z = m_name x /\ m_size z = m_size x /\
    length (m_fields y) = length members /\ (forall n, In n kz <-> In n ky \/ In n kx) /\
    exists fb fa gn gs ge, shape x y z (length before) fb fa gn gs ge.
Proof.
  intros before members after grp outer flat env i j k y ky x kx (E1 & E2 & (f & E3 & Ef & Eo) & E4 & N1 & N2) Es Hy Hx.
  unfold message_from_model in Hy, Hx |- *. rewrite E1. rewrite E2 in Hy. rewrite E3 in Hx.
  apply bind_ok in Hy. destruct Hy as ([[[Y dy] by_] ky'] & Hy & K). injection K as <- <-.
  apply bind_ok in Hx. destruct Hx as ([[[X dx] bx] kx'] & Hx & K). injection K as <- <-.
  set (y := MkMessage i (sm_name grp) Y {| is_dyn_sized := by_; is_element_dyn_sized := 0 <? dy |}) in *.
  rewrite mfields_from_app in Hx. apply bind_ok in Hx. destruct Hx as ([[[fb db] bb] kb] & Hb & Hx).
  apply members_before in Hb; [|intros v Hv; apply N1; left; exact Hv].
  pose proof (mfields_facts _ _ _ _ _ _ _ _ _ _ (N.le_0_l 1) Hb) as (_ & Db & _ & fb' & Efb & Nfb & Ufb). cbn [app] in Efb. subst fb'.
  pose proof (mfields_facts _ _ _ _ _ _ _ _ _ _ (N.le_0_l 1) Hy) as (_ & Dy & _ & Y' & EY & NY & UY). cbn [app] in EY. subst Y'.
  apply mfields_step in Hx. destruct Hx as (gf & kg & Hg & S1 & S2 & Hx).
  assert (Eg : gf = MkMField (smf_name f) (TRef (RMessage y)) false (m_size y) (pe_endianness env) /\ kg = []).
  { unfold mfield_from_model in Hg. rewrite Ef in Hg. unfold referenced_lookup, with_message in Hg. cbn [pe_structs pe_messages pe_endianness] in Hg.
    rewrite Es, sget_sinsert, String.eqb_refl in Hg. cbn [ok_or bind] in Hg. injection Hg as <- <-. split; [|reflexivity].
    destruct Eo as [-> | ->]; reflexivity. }
  destruct Eg as (-> & ->). cbn [mf_size m_size y is_dyn_sized is_element_dyn_sized] in *. rewrite app_nil_r in Hx.
  replace (step_count db {| is_dyn_sized := by_; is_element_dyn_sized := 0 <? dy |}) with (db + dy) in *.
  2:{ unfold step_count. cbn [is_element_dyn_sized]. destruct (N.ltb_spec 0 dy); lia. }
  rewrite mfields_from_app, Hb. cbn [bind]. rewrite mfields_from_app.
  pose proof (members_inside env fb db bb kb Db members [] 0 false [] Y dy by_ ky') as G.
  cbn [map] in G. rewrite !app_nil_r, N.add_0_r, orb_false_r in G. rewrite G; clear G; [| |intros ? []|lia|exact Hy|].
  2:{ intros v Hv. rewrite Nfb. intro I. apply in_map_iff in I. destruct I as (v' & E & Hv'). apply (N2 v v' Hv (or_introl Hv')). symmetry. exact E. }
  2:{ intro K. specialize (S1 K). destruct S1 as (-> & S1). split; [reflexivity|]. lia. }
  cbn [bind].
  pose proof (members_behind env (with_message env (sm_name grp) y) fb (MkMField (smf_name f) (TRef (RMessage y)) false (m_size y) (pe_endianness env))
    (map (reindex (Nat.add (length fb))) Y) (sm_name grp) eq_refl eq_refl (lookup_other env _ y) ltac:(intros s; discriminate) after [] (db + dy) (bb || by_) kb (kb ++ ky') X dx bx kx' S2) as G.
  destruct G as (A' & K & EX & EK & UA & G); [|intros ? []|exact Hx|].
  { intros v Hv. split; [apply N1; right; exact Hv|]. rewrite names_reindex, NY. intro I. apply in_map_iff in I. destruct I as (v' & E & Hv').
    apply (N2 v' v Hv' (or_intror Hv)). exact E. }
  cbn [map app] in G. rewrite !app_nil_r in G. rewrite map_length in G. rewrite G. cbn [bind]. do 2 eexists. split; [reflexivity|].
  cbn [m_id m_name m_size m_fields y]. do 3 (split; [reflexivity|]). split; [exact E4|]. split; [reflexivity|].
  split; [rewrite <- (map_length mf_name), NY; apply map_length|]. split.
  { intro n. subst kx'. rewrite !in_app_iff. tauto. }
  exists fb, A', (smf_name f), (m_size y), (pe_endianness env). subst X. constructor; cbn [m_fields]; [|reflexivity|reflexivity|exact UA|exact Ufb|exact UY].
  rewrite <- (map_length mf_name), Nfb. apply map_length.
Qed.
