(** A compiled protocol holds its declared items, in order (C55), and each
    union compiles to what its declaration means (C53, C54). *)

From Coq Require Import Arith NArith ZArith Ascii String List Bool Lia.
From Verif Require Import Base Schema Codec Compiler StructFacts SpecComp CompFacts CompThms ScopeThms SpecCase SpecItems CaseThms.
Import ListNotations.
Local Open Scope N_scope.
Local Open Scope string_scope.

Section Items.
Context (m : mode) (solver : resolver) (w : world) (v : sprotocol).

Lemma imports_items : forall l p p', foldM (import_one solver) p l = Ok p' ->
  p_name p' = p_name p /\ p_endianness p' = p_endianness p /\ p_enums p' = p_enums p /\ p_structs p' = p_structs p /\
  p_unions p' = p_unions p /\ p_messages p' = p_messages p.
Proof.
  intros l p p' H.
  refine (foldM_inv (fun q => p_name q = p_name p /\ p_endianness q = p_endianness p /\ p_enums q = p_enums p /\ p_structs q = p_structs p /\
     p_unions q = p_unions p /\ p_messages q = p_messages p) _ _ _ _ _ _ H); [|repeat split].
  intros s x s' _ Hs Hx. unfold import_one in Hx. apply bind_ok in Hx. destruct Hx as (r & _ & Hx). cbv zeta in Hx.
  destruct (sget (si_type x) (p_structs_by_name r)); [|destruct (sget (si_type x) (p_enums_by_name r));
    [|destruct (sget (si_type x) (p_unions_by_name r)); [|destruct (sget (si_type x) (p_messages_by_name r)); [|discriminate]]]];
    repeat (apply bind_ok in Hx; destruct Hx as (? & _ & Hx)); inversion Hx; subst; exact Hs.
Qed.

(** Names are looked up in the lists of items, later items first, or else
    unchanged. *)
Lemma named_app : forall {A} (name : A -> string) l x, named_last name (l ++ [x])%list (name x) = Some x.
Proof.
  intros A name l x. unfold named_last. rewrite rev_unit. cbn [find]. rewrite String.eqb_refl. reflexivity.
Qed.
Lemma named_other : forall {A} (name : A -> string) l x n, name x <> n ->
  named_last name (l ++ [x])%list n = named_last name l n.
Proof.
  intros A name l x n H. unfold named_last. rewrite rev_unit. cbn [find].
  destruct (String.eqb_spec (name x) n); [contradiction|reflexivity].
Qed.

Definition reads {A} (name : A -> string) (old map' : smap A) (l : list A) : Prop :=
  forall n, sget n map' = or_else (named_last name l n) (sget n old).

Lemma sget_sinsert : forall {A} k (x : A) mp n, sget n (sinsert k x mp) = if String.eqb n k then Some x else sget n mp.
Proof. reflexivity. Qed.

Lemma reads_nil : forall {A} (name : A -> string) mp, reads name mp mp [].
Proof. intros A name mp n. reflexivity. Qed.
Lemma reads_insert : forall {A} (name : A -> string) old mp l x, reads name old mp l ->
  reads name old (sinsert (name x) x mp) (l ++ [x]).
Proof.
  intros A name old mp l x H n. rewrite sget_sinsert. destruct (String.eqb_spec n (name x)) as [->|Hn].
  - rewrite named_app. reflexivity.
  - rewrite named_other by congruence. apply H.
Qed.

Lemma Forall2_snoc : forall {A B} (R : A -> B -> Prop) l l' x y, Forall2 R l l' -> R x y -> Forall2 R (l ++ [x]) (l' ++ [y]).
Proof. intros. apply Forall2_app; [assumption|]. constructor; [assumption|constructor]. Qed.

(** Each phase appends to its own list and leaves the rest. *)
Lemma enums_items : forall l p p', foldM define_enum p l = Ok p' ->
  p_name p' = p_name p /\ p_endianness p' = p_endianness p /\ p_structs p' = p_structs p /\ p_unions p' = p_unions p /\ p_messages p' = p_messages p /\
  p_structs_by_name p' = p_structs_by_name p /\ p_messages_by_name p' = p_messages_by_name p /\ p_unions_by_name p' = p_unions_by_name p /\
  exists es, p_enums p' = (p_enums p ++ es)%list /\ Forall2 (fun d e => enum_from_model d = Ok e) l es /\
    reads e_name (p_enums_by_name p) (p_enums_by_name p') es.
Proof.
  intros l p p' H.
  refine (foldM_prefix (fun l q => p_name q = p_name p /\ p_endianness q = p_endianness p /\ p_structs q = p_structs p /\ p_unions q = p_unions p /\ p_messages q = p_messages p /\
    p_structs_by_name q = p_structs_by_name p /\ p_messages_by_name q = p_messages_by_name p /\ p_unions_by_name q = p_unions_by_name p /\
    exists es, p_enums q = (p_enums p ++ es)%list /\ Forall2 (fun d e => enum_from_model d = Ok e) l es /\
      reads e_name (p_enums_by_name p) (p_enums_by_name q) es) _ _ _ _ _ _ H).
  - intros l1 x s s' (A & B & C & D & F & G & I & J & es & K & L & M) Hx.
    unfold define_enum in Hx. apply bind_ok in Hx. destruct Hx as (e & He & Hx). inversion Hx; subst. cbn.
    do 8 (split; [assumption|]). exists (es ++ [e])%list. split; [rewrite K, app_assoc; reflexivity|].
    split; [apply Forall2_snoc; assumption|apply reads_insert; assumption].
  - do 8 (split; [reflexivity|]). exists []. split; [rewrite app_nil_r; reflexivity|]. split; [constructor|apply reads_nil].
Qed.

Lemma foldM_firstn : forall {E A St} (f : St -> A -> outcome E St) l s s' k, foldM f s l = Ok s' ->
  exists s1, foldM f s (firstn k l) = Ok s1.
Proof.
  intros E A St f. induction l as [|x l IH]; intros s s' k H; destruct k; cbn in *; eauto.
  apply bind_ok in H. destruct H as (s1 & H1 & H2). rewrite H1. cbn. eauto.
Qed.

Lemma structs_items : forall l p w1 p' w2, foldM (define_struct m) (p, w1) l = Ok (p', w2) ->
  p_name p' = p_name p /\ p_endianness p' = p_endianness p /\ p_enums p' = p_enums p /\ p_unions p' = p_unions p /\ p_messages p' = p_messages p /\
  p_enums_by_name p' = p_enums_by_name p /\ p_messages_by_name p' = p_messages_by_name p /\ p_unions_by_name p' = p_unions_by_name p /\
  exists ss, p_structs p' = (p_structs p ++ ss)%list /\ length ss = length l /\
    (forall k d s, nth_error l k = Some d -> nth_error ss k = Some s ->
       exists q wq, foldM (define_struct m) (p, w1) (firstn k l) = Ok (q, wq) /\
         structure_from_model m (p_endianness p) (p_enums_by_name p) (p_structs_by_name q) (w_next wq) d = Ok s) /\
    reads s_name (p_structs_by_name p) (p_structs_by_name p') ss.
Proof.
  induction l as [|x l IH] using rev_ind; intros p w1 p' w2 H.
  - cbn in H. inversion H; subst. do 8 (split; [reflexivity|]). exists []. split; [rewrite app_nil_r; reflexivity|].
    split; [reflexivity|]. split; [|apply reads_nil]. intros [|k] d s Hd; discriminate.
  - assert (Hs : exists q wq, foldM (define_struct m) (p, w1) l = Ok (q, wq) /\ define_struct m (q, wq) x = Ok (p', w2)).
    { destruct (foldM_nth _ _ _ _ (length l) x H) as ((q & wq) & s2 & Hq & Hx & Hr).
      { rewrite nth_error_app2, Nat.sub_diag by lia. reflexivity. }
      rewrite firstn_app, Nat.sub_diag, firstn_O, app_nil_r, firstn_all in Hq.
      rewrite skipn_all2 in Hr by (rewrite app_length; cbn; lia). cbn in Hr. inversion Hr; subst. eauto. }
    destruct Hs as (q & wq & Hq & Hx). destruct (IH _ _ _ _ Hq) as (A & B & C & D & F & G & I & J & ss & K & L & M & R).
    unfold define_struct in Hx. apply bind_ok in Hx. destruct Hx as (s & Hs & Hx). inversion Hx; subst. cbn.
    do 8 (split; [assumption|]). exists (ss ++ [s])%list. split; [rewrite K, app_assoc; reflexivity|].
    split; [rewrite !app_length, L; reflexivity|]. split; [|apply reads_insert; exact R].
    intros k d s0 Hd Hs0. destruct (Nat.lt_ge_cases k (length l)) as [Hk|Hk].
    + rewrite nth_error_app1 in Hd by assumption. rewrite nth_error_app1 in Hs0 by lia.
      rewrite firstn_app. replace (k - length l)%nat with 0%nat by lia. rewrite firstn_O, app_nil_r. eauto.
    + rewrite nth_error_app2 in Hd by assumption. rewrite nth_error_app2 in Hs0 by lia.
      destruct (k - length l)%nat eqn:E; [|destruct n; discriminate]. inversion Hd; subst d.
      replace (k - length ss)%nat with 0%nat in Hs0 by lia. inversion Hs0; subst s0.
      rewrite firstn_app. replace (k - length l)%nat with 0%nat by lia. rewrite firstn_O, app_nil_r, firstn_all2 by lia.
      exists q, wq. split; [assumption|]. rewrite <- B, <- G. exact Hs.
Qed.

Lemma unions_items : forall l p p', foldM define_union p l = Ok p' ->
  p_name p' = p_name p /\ p_endianness p' = p_endianness p /\ p_enums p' = p_enums p /\ p_structs p' = p_structs p /\ p_messages p' = p_messages p /\
  p_enums_by_name p' = p_enums_by_name p /\ p_structs_by_name p' = p_structs_by_name p /\ p_messages_by_name p' = p_messages_by_name p /\
  exists us, p_unions p' = (p_unions p ++ us)%list /\
    Forall2 (fun d u => union_from_model (p_structs_by_name p) (p_messages_by_name p) d = Ok u) l us /\
    reads u_name (p_unions_by_name p) (p_unions_by_name p') us.
Proof.
  intros l p p' H.
  refine (foldM_prefix (fun l q => p_name q = p_name p /\ p_endianness q = p_endianness p /\ p_enums q = p_enums p /\ p_structs q = p_structs p /\ p_messages q = p_messages p /\
    p_enums_by_name q = p_enums_by_name p /\ p_structs_by_name q = p_structs_by_name p /\ p_messages_by_name q = p_messages_by_name p /\
    exists us, p_unions q = (p_unions p ++ us)%list /\
    Forall2 (fun d u => union_from_model (p_structs_by_name p) (p_messages_by_name p) d = Ok u) l us /\
    reads u_name (p_unions_by_name p) (p_unions_by_name q) us) _ _ _ _ _ _ H).
  - intros l1 x s s' (A & B & C & D & F & G & I & J & es & K & L & M) Hx.
    unfold define_union in Hx. apply bind_ok in Hx. destruct Hx as (e & He & Hx). inversion Hx; subst. cbn.
    do 8 (split; [assumption|]). exists (es ++ [e])%list. split; [rewrite K, app_assoc; reflexivity|].
    split; [apply Forall2_snoc; [assumption|]; rewrite <- I, <- J; exact He|apply reads_insert; assumption].
  - do 8 (split; [reflexivity|]). exists []. split; [rewrite app_nil_r; reflexivity|]. split; [constructor|apply reads_nil].
Qed.

Lemma messages_items : forall l p w1 p' w2, foldM define_message (p, w1) l = Ok (p', w2) ->
  p_name p' = p_name p /\ p_endianness p' = p_endianness p /\ p_enums p' = p_enums p /\ p_structs p' = p_structs p /\ p_unions p' = p_unions p /\
  p_enums_by_name p' = p_enums_by_name p /\ p_structs_by_name p' = p_structs_by_name p /\ p_unions_by_name p' = p_unions_by_name p /\
  exists xs, p_messages p' = (p_messages p ++ xs)%list /\ length xs = length l /\
    (forall k d x, nth_error l k = Some d -> nth_error xs k = Some x ->
       exists q wq marks, foldM define_message (p, w1) (firstn k l) = Ok (q, wq) /\
         message_from_model {| pe_endianness := p_endianness p; pe_structs := p_structs_by_name p;
           pe_messages := p_messages_by_name q; pe_unions := p_unions_by_name p |} (w_next wq) d = Ok (x, marks)) /\
    reads m_name (p_messages_by_name p) (p_messages_by_name p') xs.
Proof.
  induction l as [|x l IH] using rev_ind; intros p w1 p' w2 H.
  - cbn in H. inversion H; subst. do 8 (split; [reflexivity|]). exists []. split; [rewrite app_nil_r; reflexivity|].
    split; [reflexivity|]. split; [|apply reads_nil]. intros [|k] d s Hd; discriminate.
  - assert (Hs : exists q wq, foldM define_message (p, w1) l = Ok (q, wq) /\ define_message (q, wq) x = Ok (p', w2)).
    { destruct (foldM_nth _ _ _ _ (length l) x H) as ((q & wq) & s2 & Hq & Hx & Hr).
      { rewrite nth_error_app2, Nat.sub_diag by lia. reflexivity. }
      rewrite firstn_app, Nat.sub_diag, firstn_O, app_nil_r, firstn_all in Hq.
      rewrite skipn_all2 in Hr by (rewrite app_length; cbn; lia). cbn in Hr. inversion Hr; subst. eauto. }
    destruct Hs as (q & wq & Hq & Hx). destruct (IH _ _ _ _ Hq) as (A & B & C & D & F & G & I & J & ss & K & L & M & R).
    unfold define_message in Hx. apply bind_ok in Hx. destruct Hx as ((s & marks) & Hs & Hx). inversion Hx; subst. cbn.
    do 8 (split; [assumption|]). exists (ss ++ [s])%list. split; [rewrite K, app_assoc; reflexivity|].
    split; [rewrite !app_length, L; reflexivity|]. split; [|apply reads_insert; exact R].
    intros k d s0 Hd Hs0. destruct (Nat.lt_ge_cases k (length l)) as [Hk|Hk].
    + rewrite nth_error_app1 in Hd by assumption. rewrite nth_error_app1 in Hs0 by lia.
      rewrite firstn_app. replace (k - length l)%nat with 0%nat by lia. rewrite firstn_O, app_nil_r. eauto.
    + rewrite nth_error_app2 in Hd by assumption. rewrite nth_error_app2 in Hs0 by lia.
      destruct (k - length l)%nat eqn:E; [|destruct n; discriminate]. inversion Hd; subst d.
      replace (k - length ss)%nat with 0%nat in Hs0 by lia. inversion Hs0; subst s0.
      rewrite firstn_app. replace (k - length l)%nat with 0%nat by lia. rewrite firstn_O, app_nil_r, firstn_all2 by lia.
      exists q, wq, marks. split; [assumption|]. rewrite <- B, <- I, <- J. exact Hs.
Qed.
End Items.

Lemma Forall2_weak : forall {A B} (R S : A -> B -> Prop), (forall a b, R a b -> S a b) ->
  forall l l', Forall2 R l l' -> Forall2 S l l'.
Proof. intros A B R S H l l' HF. induction HF; constructor; auto. Qed.

Lemma by_index : forall {A B} (R : nat -> A -> B -> Prop) (l : list A) (l' : list B), length l' = length l ->
  (forall k a b, nth_error l k = Some a -> nth_error l' k = Some b -> R k a b) -> each R l l'.
Proof. intros A B R l l' Hl H. split; [symmetry; exact Hl|exact H]. Qed.

Theorem protocol_items : forall m solver w v p w', protocol_from_model m solver w v = Ok (p, w') ->
  p_name p = sp_name v /\
  Forall2 (fun d e => enum_from_model d = Ok e) (sp_enums v) (p_enums p) /\
  each (fun k d s => exists q wq, protocol_from_model m solver w (only_structs k v) = Ok (q, wq) /\
          structure_from_model m Little (p_enums_by_name p) (p_structs_by_name q) (w_next wq) d = Ok s)
       (sp_structs v) (p_structs p) /\
  Forall2 (fun d u => exists q wq, protocol_from_model m solver w (only_messages 0 v) = Ok (q, wq) /\
             union_from_model (p_structs_by_name p) (p_messages_by_name q) d = Ok u)
       (sp_unions v) (p_unions p) /\
  each (fun k d x => exists q wq marks, protocol_from_model m solver w (only_messages k v) = Ok (q, wq) /\
          message_from_model {| pe_endianness := Little; pe_structs := p_structs_by_name p;
            pe_messages := p_messages_by_name q; pe_unions := p_unions_by_name p |} (w_next wq) d = Ok (x, marks))
       (sp_messages v) (p_messages p).
Proof.
  intros m solver w v p w' H.
  destruct (protocol_phases _ _ _ _ _ _ H) as (p1 & p2 & p3 & w3 & p4 & H1 & H2 & H3 & H4 & H5). clear H.
  pose proof (imports_items _ _ _ _ H1) as I1. destruct I1 as (A1 & B1 & C1 & D1 & E1 & F1).
  pose proof (enums_items _ _ _ H2) as I2. destruct I2 as (A2 & B2 & C2 & D2 & E2 & F2 & G2 & K2 & es & Les & Fes & _).
  pose proof (structs_items _ _ _ _ _ _ H3) as I3. destruct I3 as (A3 & B3 & C3 & D3 & E3 & F3 & G3 & K3 & ss & Lss & Nss & Fss & _).
  pose proof (unions_items _ _ _ H4) as I4. destruct I4 as (A4 & B4 & C4 & D4 & E4 & F4 & G4 & K4 & us & Lus & Fus & _).
  pose proof (messages_items _ _ _ _ _ H5) as I5. destruct I5 as (A5 & B5 & C5 & D5 & E5 & F5 & G5 & K5 & xs & Lxs & Nxs & Fxs & _).
  cbn [protocol_empty p_name p_endianness p_enums p_structs p_unions p_messages] in *.
  split; [congruence|]. split; [rewrite C5, C4, C3, Les, C1; exact Fes|]. split.
  { rewrite D5, D4, Lss, C2, D1. cbn [app]. apply by_index; [exact Nss|].
    intros k d s Hd Hs. destruct (Fss k d s Hd Hs) as (q & wq & Hq & Hm). exists q, wq. split.
    - unfold protocol_from_model, only_structs. cbn [sp_name sp_endianness sp_imports sp_structs sp_messages sp_enums sp_unions].
      rewrite H1. cbn [bind]. rewrite H2. cbn [bind]. rewrite Hq. reflexivity.
    - rewrite F5, F4, F3, <- Hm. f_equal. congruence. }
  split.
  { rewrite E5, Lus, D3, D2, E1. cbn [app]. rewrite G5. eapply Forall2_weak; [|exact Fus].
    intros d u Hu. exists p4, w3. split.
    - unfold protocol_from_model, only_messages. cbn [sp_name sp_endianness sp_imports sp_structs sp_messages sp_enums sp_unions firstn].
      rewrite H1. cbn [bind]. rewrite H2. cbn [bind]. rewrite H3. cbn [bind]. rewrite H4. reflexivity.
    - rewrite G4, K4. exact Hu. }
  rewrite Lxs, E4, E3, E2, F1. cbn [app]. apply by_index; [exact Nxs|].
  intros k d x Hd Hx. destruct (Fxs k d x Hd Hx) as (q & wq & marks & Hq & Hm). exists q, wq, marks. split.
  - unfold protocol_from_model, only_messages. cbn [sp_name sp_endianness sp_imports sp_structs sp_messages sp_enums sp_unions].
    rewrite H1. cbn [bind]. rewrite H2. cbn [bind]. rewrite H3. cbn [bind]. rewrite H4. cbn [bind]. exact Hq.
  - rewrite G5, K5, <- Hm. f_equal. f_equal. congruence.
Qed.

(** What a name means after compilation: the last local item of that name, or
    else what the imports made of it. *)
Theorem protocol_names : forall m solver w v p w', protocol_from_model m solver w v = Ok (p, w') ->
  exists q wq, protocol_from_model m solver w (only_imports v) = Ok (q, wq) /\
  forall n,
    sget n (p_enums_by_name p) = or_else (named_last e_name (p_enums p) n) (sget n (p_enums_by_name q)) /\
    sget n (p_structs_by_name p) = or_else (named_last s_name (p_structs p) n) (sget n (p_structs_by_name q)) /\
    sget n (p_unions_by_name p) = or_else (named_last u_name (p_unions p) n) (sget n (p_unions_by_name q)) /\
    sget n (p_messages_by_name p) = or_else (named_last m_name (p_messages p) n) (sget n (p_messages_by_name q)).
Proof.
  intros m solver w v p w' H.
  destruct (protocol_phases _ _ _ _ _ _ H) as (p1 & p2 & p3 & w3 & p4 & H1 & H2 & H3 & H4 & H5). clear H.
  exists p1, w. split.
  { unfold protocol_from_model, only_imports. cbn [sp_name sp_endianness sp_imports sp_structs sp_messages sp_enums sp_unions].
    rewrite H1. reflexivity. }
  pose proof (imports_items _ _ _ _ H1) as I1. destruct I1 as (A1 & B1 & C1 & D1 & E1 & F1).
  pose proof (enums_items _ _ _ H2) as I2. destruct I2 as (A2 & B2 & C2 & D2 & E2 & F2 & G2 & K2 & es & Les & _ & Fes).
  pose proof (structs_items _ _ _ _ _ _ H3) as I3. destruct I3 as (A3 & B3 & C3 & D3 & E3 & F3 & G3 & K3 & ss & Lss & _ & _ & Fss).
  pose proof (unions_items _ _ _ H4) as I4. destruct I4 as (A4 & B4 & C4 & D4 & E4 & F4 & G4 & K4 & us & Lus & _ & Fus).
  pose proof (messages_items _ _ _ _ _ H5) as I5. destruct I5 as (A5 & B5 & C5 & D5 & E5 & F5 & G5 & K5 & xs & Lxs & _ & _ & Fxs).
  cbn [protocol_empty p_name p_endianness p_enums p_structs p_unions p_messages] in *.
  intro n. split; [|split; [|split]].
  - rewrite F5, F4, F3, C5, C4, C3, Les, C1. cbn [app]. apply Fes.
  - rewrite G5, G4, D5, D4, Lss, C2, D1. cbn [app]. rewrite <- F2. apply Fss.
  - rewrite K5, E5, Lus, D3, D2, E1. cbn [app]. rewrite <- K2, <- K3. apply Fus.
  - rewrite Lxs, E4, E3, E2, F1. cbn [app]. rewrite <- G2, <- G3, <- K4. apply Fxs.
Qed.

(** ** Unions of a protocol *)

Theorem protocol_unions : forall m solver w v p w' k d u,
  protocol_from_model m solver w v = Ok (p, w') ->
  nth_error (sp_unions v) k = Some d -> nth_error (p_unions p) k = Some u ->
  exists q wq, protocol_from_model m solver w (only_messages 0 v) = Ok (q, wq) /\
  u_name u = sun_name d /\
  (sun_cases d = [] /\ u_cases u = [] \/
   exists f, get_leaf (E:=cerror) (u_disc u) = Ok f /\
     Forall2 (case_of (p_structs_by_name p) (p_messages_by_name q) (ff_view f)) (sun_cases d) (u_cases u)).
Proof.
  intros m solver w v p w' k d u H Hd Hu. destruct (protocol_items _ _ _ _ _ _ H) as (_ & _ & _ & HF & _).
  assert (G : forall l l', Forall2 (fun d u => exists q wq, protocol_from_model m solver w (only_messages 0 v) = Ok (q, wq) /\
             union_from_model (p_structs_by_name p) (p_messages_by_name q) d = Ok u) l l' -> forall k,
    nth_error l k = Some d -> nth_error l' k = Some u -> exists q wq, protocol_from_model m solver w (only_messages 0 v) = Ok (q, wq) /\
             union_from_model (p_structs_by_name p) (p_messages_by_name q) d = Ok u).
  { intros l l' HH. induction HH as [|a b l l' Hab HH IH]; intros [|i] Ha Hb; try discriminate.
    - inversion Ha; inversion Hb; subst. exact Hab.
    - eapply IH; eassumption. }
  destruct (G _ _ HF k Hd Hu) as (q & wq & Hq & Hun). exists q, wq. split; [exact Hq|]. apply union_cases in Hun. exact Hun.
Qed.
