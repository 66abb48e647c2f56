(** A JSON value describes one protocol, and every protocol can be described (C59). *)

From Coq Require Import Arith NArith ZArith Ascii String List Bool Lia Permutation.
From Verif Require Import Base Schema Json SpecJson JsonThms.
Import ListNotations.
Local Open Scope string_scope.

(** ** One description *)

Definition det {A} (P : json -> A -> Prop) : Prop := forall x v v', P x v -> P x v' -> v = v'.

Lemma det_req : forall {A} (P : json -> A -> Prop) j k i v v', det P -> req P j k i v -> req P j k i v' -> v = v'.
Proof. intros A P j k i v v' HP (x & Hx & H) (y & Hy & H'). rewrite (has_fun _ _ _ _ _ Hx Hy) in H. eapply HP; eassumption. Qed.
Lemma det_opt : forall {A} (P : json -> A -> Prop) j k i v v', det P -> opt P j k i v -> opt P j k i v' -> v = v'.
Proof.
  intros A P j k i [v|] [v'|] HP; cbn [opt]; try reflexivity.
  - intros (x & Hx & _ & H) (y & Hy & _ & H'). rewrite (has_fun _ _ _ _ _ Hx Hy) in H. f_equal. eapply HP; eassumption.
  - intros (x & Hx & Hn & _) [Hl|Hl]; exfalso; [eapply has_lacks; eassumption|]. apply Hn. eapply has_fun; eassumption.
  - intros [Hl|Hl] (x & Hx & Hn & _); exfalso; [eapply has_lacks; eassumption|]. apply Hn. eapply has_fun; eassumption.
Qed.

Lemma forall2_two : forall {A} (P : json -> A -> Prop) (R : A -> A -> Prop),
  (forall x v v', P x v -> P x v' -> R v v') ->
  forall xs l l', Forall2 P xs l -> Forall2 P xs l' -> Forall2 R l l'.
Proof. intros A P R HR xs l l' H. revert l'. induction H; intros l1 H1; inversion H1; subst; constructor; eauto. Qed.
Lemma forall2_eq : forall {A} (l l' : list A), Forall2 eq l l' -> l = l'.
Proof. induction 1; congruence. Qed.
Lemma det_listed : forall {A} (P : json -> A -> Prop), det P -> det (listed P).
Proof.
  intros A P HP x l l' (xs & -> & H) (xs' & He & H'). inversion He; subst.
  apply forall2_eq. eapply forall2_two; [|exact H|exact H']. exact HP.
Qed.
Lemma two_lists : forall {A} (P : json -> A -> Prop) (R : A -> A -> Prop) j k i l l',
  (forall x v v', P x v -> P x v' -> R v v') -> opt_list P j k i l -> opt_list P j k i l' -> Forall2 R l l'.
Proof.
  intros A P R j k i l l' HR [(x & Hx & H)|(-> & H)] [(y & Hy & H')|(-> & H')].
  - assert (He := has_fun _ _ _ _ _ Hx Hy). inversion He; subst. eapply forall2_two; eassumption.
  - exfalso. destruct H' as [H'|H']; [eapply has_lacks; eassumption|]. pose proof (has_fun _ _ _ _ _ Hx H'). discriminate.
  - exfalso. destruct H as [H|H]; [eapply has_lacks; eassumption|]. pose proof (has_fun _ _ _ _ _ Hy H). discriminate.
  - constructor.
Qed.
Lemma det_list : forall {A} (P : json -> A -> Prop) j k i l l', det P -> opt_list P j k i l -> opt_list P j k i l' -> l = l'.
Proof. intros A P j k i l l' HP H H'. apply forall2_eq. eapply two_lists; [exact HP|eassumption|eassumption]. Qed.

Lemma variant_fun : forall j t n t' n', is_variant t n j -> is_variant t' n' j -> t = t'.
Proof.
  intros j t n t' n'. destruct j; cbn [is_variant]; try contradiction.
  - intros (H & _) (H' & _). congruence.
  - intros H H'. pose proof (has_fun (JObject l) "type" 0 _ _ H H') as E. congruence.
Qed.

Lemma det_string : det is_string.
Proof. intros x v v' -> H. inversion H. reflexivity. Qed.
Lemma det_bool : det is_bool.
Proof. intros x v v' -> H. inversion H. reflexivity. Qed.
Lemma det_size : det is_size.
Proof. intros x v v' (-> & _) (H & _). inversion H. apply N2Z.inj. assumption. Qed.
Lemma det_real : det is_real.
Proof.
  intros x v v' [->|(z & -> & _ & ->)] [H|(z' & H & _ & H')]; try discriminate; inversion H; subst; reflexivity.
Qed.
Lemma det_endianness : det is_endianness.
Proof. intros x [] [] H H'; unfold is_endianness in *; try reflexivity; rewrite H in H'; discriminate. Qed.
#[local] Hint Resolve det_string det_bool det_size det_real det_endianness det_listed : det.

(** Equal members, one after the other. *)
Ltac same :=
  repeat match goal with
  | H : req ?P ?j ?k ?i ?v, H' : req ?P ?j ?k ?i ?v' |- _ =>
      let E := fresh in assert (E : v = v') by (eapply (det_req P); [auto with det|exact H|exact H']); clear H'
  | H : opt ?P ?j ?k ?i ?v, H' : opt ?P ?j ?k ?i ?v' |- _ =>
      let E := fresh in assert (E : v = v') by (eapply (det_opt P); [auto with det|exact H|exact H']); clear H'
  end.

Lemma det_view : det is_view.
Proof.
  intros j v v' H H'. destruct v, v'; cbn [is_view] in *;
    (match goal with A : is_variant _ _ j /\ _, B : is_variant _ _ j /\ _ |- _ =>
       destruct A as (A & A'); destruct B as (B & B'); pose proof (variant_fun _ _ _ _ _ A B) end);
    try discriminate; repeat match goal with X : _ /\ _ |- _ => destruct X end; same; congruence.
Qed.
Lemma det_info : det is_info.
Proof.
  intros j v v' H H'. destruct v, v'; cbn [is_info] in *;
    (match goal with A : is_variant _ _ j /\ _, B : is_variant _ _ j /\ _ |- _ =>
       destruct A as (A & A'); destruct B as (B & B'); pose proof (variant_fun _ _ _ _ _ A B) end);
    try discriminate; same; congruence.
Qed.
Lemma det_minfo : det is_minfo.
Proof.
  intros j v v' H H'.
  assert (T : exists t n, is_variant t n j /\ match v with MTItem _ => t = "item" | MTList _ _ => t = "list"
    | MTString _ => t = "string" | MTPayload => t = "payload" | MTUnion _ _ => t = "union" end)
    by (destruct v; cbn [is_minfo] in H; repeat match goal with A : _ /\ _ |- _ => destruct A end; eauto).
  assert (T' : exists t n, is_variant t n j /\ match v' with MTItem _ => t = "item" | MTList _ _ => t = "list"
    | MTString _ => t = "string" | MTPayload => t = "payload" | MTUnion _ _ => t = "union" end)
    by (destruct v'; cbn [is_minfo] in H'; repeat match goal with A : _ /\ _ |- _ => destruct A end; eauto).
  destruct T as (t & n & A & B), T' as (t' & n' & A' & B'). pose proof (variant_fun _ _ _ _ _ A A') as E. subst t'.
  destruct v, v'; try congruence; cbn [is_minfo] in *; clear A A' B B';
    repeat match goal with A : _ /\ _ |- _ => destruct A end; same; congruence.
Qed.
#[local] Hint Resolve det_view det_info det_minfo : det.

Lemma det_import : det is_import.
Proof.
  intros j [] [] (_ & A & B) (_ & A' & B'). cbn in *. same. congruence.
Qed.
Lemma det_case : det is_case.
Proof.
  intros j [] [] (_ & A & B & C) (_ & A' & B' & C'). cbn in *. same. congruence.
Qed.
#[local] Hint Resolve det_import det_case : det.
Lemma det_union : det is_union.
Proof.
  intros j [] [] (_ & A & B & C) (_ & A' & B' & C'). cbn in *. same. congruence.
Qed.
Lemma det_mfield : det is_mfield.
Proof.
  intros j [] [] (_ & A & B & C) (_ & A' & B' & C'). cbn in *. same. congruence.
Qed.
#[local] Hint Resolve det_union det_mfield : det.
Lemma det_message : det is_message.
Proof.
  intros j [] [] (_ & A & B) (_ & A' & B'). cbn in *. same. congruence.
Qed.

Section Numbers.
Variable num : json -> option N.

Lemma det_num : det (is_num num).
Proof. intros x v v'. unfold is_num. congruence. Qed.
#[local] Hint Resolve det_num : det.
Lemma det_field : det (is_field num).
Proof.
  intros j [] [] (_ & A & B & C & D) (_ & A' & B' & C' & D'). cbn in *. same. congruence.
Qed.
#[local] Hint Resolve det_field : det.
Lemma det_struct : det (is_struct num).
Proof.
  intros j [] [] (_ & A & B) (_ & A' & B'). cbn in *. same. congruence.
Qed.

Lemma nodup_pairs : forall (l : list (string * N)), NoDup (map fst l) -> NoDup l.
Proof. intros l H. apply NoDup_map_inv with (f := fst). exact H. Qed.

Lemma variants_same : forall x v v', is_variants num x v -> is_variants num x v' -> Permutation v v'.
Proof.
  intros x v v' (l & -> & _ & A & B) (l' & He & _ & A' & B'). inversion He; subst.
  apply NoDup_Permutation; [apply nodup_pairs; assumption|apply nodup_pairs; assumption|].
  intros (k & n). rewrite B, B'. tauto.
Qed.
Lemma enum_same : forall x v v', is_enum num x v -> is_enum num x v' ->
  se_name v = se_name v' /\ Permutation (se_variants v) (se_variants v').
Proof.
  intros j v v' (_ & A & (x & Hx & B)) (_ & A' & (y & Hy & B')). same. split; [assumption|].
  rewrite (has_fun _ _ _ _ _ Hx Hy) in B. eapply variants_same; eassumption.
Qed.

Lemma protocol_same : forall j v v', is_protocol num j v -> is_protocol num j v' -> same_protocol v v'.
Proof.
  intros j v v' (_ & A & B & C & D & E & F & G) (_ & A' & B' & C' & D' & E' & F' & G'). same.
  split; [assumption|]. split; [assumption|].
  split; [eapply det_list; [exact det_import|eassumption|eassumption]|].
  split; [eapply det_list; [exact det_struct|eassumption|eassumption]|].
  split; [eapply det_list; [exact det_message|eassumption|eassumption]|].
  split; [eapply det_list; [exact det_union|eassumption|eassumption]|].
  eapply two_lists; [exact enum_same|eassumption|eassumption].
Qed.
End Numbers.

(** ** Every protocol has a description *)

Definition o_string (s : string) : json := JString s.
Definition o_opt {A} (f : A -> json) (o : option A) : json := match o with Some v => f v | None => JNull end.
Definition o_size (n : N) : json := JInt (Z.of_N n).
Definition o_view (v : sview) : json :=
  match v with
  | SVEnum n => JObject [("type", JString "enum"); ("name", JString n)]
  | SVFloatRange a b => JObject [("type", JString "float-range"); ("min", JFloat a); ("max", JFloat b)]
  | SVFloatMultiplier a => JObject [("type", JString "float-multiplier"); ("multiplier", JFloat a)]
  end.
Definition o_info (v : sftype) : json :=
  match v with
  | STSigned n => JObject [("type", JString "signed"); ("bits", o_size n)]
  | STUnsigned n => JObject [("type", JString "unsigned"); ("bits", o_size n)]
  | STFloat n => JObject [("type", JString "float"); ("bits", o_size n)]
  | STBoolean n => JObject [("type", JString "boolean"); ("bits", o_size n)]
  | STStruct n => JObject [("type", JString "struct"); ("item_type", JString n)]
  end.
Definition o_field (v : sfield) : json :=
  JObject [("name", JString (sf_name v)); ("info", o_info (sf_info v)); ("view", o_opt o_view (sf_view v));
           ("array_len", o_opt o_size (sf_array_len v))].
Definition o_struct (v : sstruct) : json :=
  JObject [("name", JString (ss_name v)); ("fields", JArray (map o_field (ss_fields v)))].
Definition o_minfo (v : mftype) : json :=
  match v with
  | MTItem t => JObject [("type", JString "item"); ("item_type", JString t)]
  | MTList n t => JObject [("type", JString "list"); ("max_len", o_size n); ("item_type", JString t)]
  | MTString n => JObject [("type", JString "string"); ("max_len", o_opt o_size n)]
  | MTPayload => JObject [("type", JString "payload")]
  | MTUnion o t => JObject [("type", JString "union"); ("on", JString o); ("item_type", JString t)]
  end.
Definition o_mfield (v : smfield) : json :=
  JObject [("name", JString (smf_name v)); ("info", o_minfo (smf_info v)); ("optional", o_opt JBool (smf_optional v))].
Definition o_message (v : smessage) : json :=
  JObject [("name", JString (sm_name v)); ("fields", JArray (map o_mfield (sm_fields v)))].
Definition o_case (v : sucase) : json :=
  JObject [("name", JString (su_name v)); ("case", JString (su_case v)); ("item_type", o_opt JString (su_item_type v))].
Definition o_union (v : sunion) : json :=
  JObject [("name", JString (sun_name v)); ("discriminant", JString (sun_discriminant v));
           ("cases", JArray (map o_case (sun_cases v)))].
Definition o_endianness (v : endianness) : json := JString (match v with Little => "little" | Big => "big" end).
Definition o_import (v : simport) : json := JObject [("protocol", JString (si_protocol v)); ("type", JString (si_type v))].
Definition o_enum (v : senum) : json :=
  JObject [("name", JString (se_name v)); ("variants", JObject (map (fun kn => (fst kn, o_size (snd kn))) (se_variants v)))].
Definition o_protocol (v : sprotocol) : json :=
  JObject [("name", JString (sp_name v)); ("endianness", o_opt o_endianness (sp_endianness v));
           ("imports", JArray (map o_import (sp_imports v))); ("structs", JArray (map o_struct (sp_structs v)));
           ("messages", JArray (map o_message (sp_messages v))); ("enums", JArray (map o_enum (sp_enums v)));
           ("unions", JArray (map o_union (sp_unions v)))].

Ltac find_member := apply values_one; reflexivity.
Lemma has_first : forall l k x i, values k l = [x] -> has (JObject l) k i x.
Proof. intros l k x i H. apply values_one. exact H. Qed.
Lemma req_first : forall {A} (P : json -> A -> Prop) l k i x v, values k l = [x] -> P x v -> req P (JObject l) k i v.
Proof. intros A P l k i x v H HP. exists x. split; [apply has_first; assumption|assumption]. Qed.
Lemma opt_first : forall {A} (P : json -> A -> Prop) f l k i (o : option A), values k l = [o_opt f o] ->
  (forall v, o = Some v -> P (f v) v) -> (forall v, f v <> JNull) -> opt P (JObject l) k i o.
Proof.
  intros A P f l k i [v|] H HP Hn; cbn [opt o_opt] in *.
  - exists (f v). split; [apply has_first; assumption|]. auto.
  - right. apply has_first. assumption.
Qed.
Lemma list_first : forall {A} (P : json -> A -> Prop) f l k i (vs : list A), values k l = [JArray (map f vs)] ->
  (forall v, In v vs -> P (f v) v) -> opt_list P (JObject l) k i vs.
Proof.
  intros A P f l k i vs H HP. left. exists (map f vs). split; [apply has_first; assumption|].
  clear H. induction vs; constructor; [apply HP; left; reflexivity|]. apply IHvs. intros. apply HP. right. assumption.
Qed.
Lemma listed_first : forall {A} (P : json -> A -> Prop) f (vs : list A),
  (forall v, In v vs -> P (f v) v) -> listed P (JArray (map f vs)) vs.
Proof.
  intros A P f vs HP. exists (map f vs). split; [reflexivity|].
  induction vs; constructor; [apply HP; left; reflexivity|]. apply IHvs. intros. apply HP. right. assumption.
Qed.

Lemma view_described : forall v, is_view (o_view v) v.
Proof.
  intros [n|a b|a]; cbn [is_view o_view].
  - split; [find_member|]. eapply req_first; [reflexivity|reflexivity].
  - split; [find_member|]. split; (eapply req_first; [reflexivity|left; reflexivity]).
  - split; [find_member|]. eapply req_first; [reflexivity|left; reflexivity].
Qed.
Lemma info_described : forall v, small_info v -> is_info (o_info v) v.
Proof.
  intros [n|n|n|n|n] H; cbn [is_info o_info];
    (split; [find_member|]; eapply req_first; [reflexivity|]); try reflexivity;
    (split; [reflexivity|exact H]).
Qed.
Lemma minfo_described : forall v, small_minfo v -> is_minfo (o_minfo v) v.
Proof.
  intros [t|n t|n| |o t] H; cbn [is_minfo o_minfo].
  - split; [find_member|]. eapply req_first; reflexivity.
  - split; [find_member|]. split; (eapply req_first; [reflexivity|]); [split; [reflexivity|exact H]|reflexivity].
  - split; [find_member|]. apply opt_first with (f := o_size); [reflexivity| |discriminate].
    intros v ->. split; [reflexivity|exact H].
  - find_member.
  - split; [find_member|]. split; (eapply req_first; reflexivity).
Qed.
Lemma mfield_described : forall v, small_minfo (smf_info v) -> is_mfield (o_mfield v) v.
Proof.
  intros v H. split; [exact I|]. split; [eapply req_first; reflexivity|].
  split; [eapply req_first; [reflexivity|apply minfo_described; assumption]|].
  apply opt_first with (f := JBool); [reflexivity|reflexivity|discriminate].
Qed.
Lemma message_described : forall v, (forall f, In f (sm_fields v) -> small_minfo (smf_info f)) -> is_message (o_message v) v.
Proof.
  intros v H. split; [exact I|]. split; [eapply req_first; reflexivity|].
  eapply req_first; [reflexivity|]. apply listed_first. intros. apply mfield_described. auto.
Qed.
Lemma case_described : forall v, is_case (o_case v) v.
Proof.
  intros v. split; [exact I|]. split; [eapply req_first; reflexivity|]. split; [eapply req_first; reflexivity|].
  apply opt_first with (f := JString); [reflexivity|reflexivity|discriminate].
Qed.
Lemma union_described : forall v, is_union (o_union v) v.
Proof.
  intros v. split; [exact I|]. split; [eapply req_first; reflexivity|]. split; [eapply req_first; reflexivity|].
  eapply req_first; [reflexivity|]. apply listed_first. intros. apply case_described.
Qed.
Lemma import_described : forall v, is_import (o_import v) v.
Proof. intros v. split; [exact I|]. split; (eapply req_first; reflexivity). Qed.

Section Numbers2.
Variable num : json -> option N.

Lemma field_described : forall v, small_info (sf_info v) ->
  (forall n, sf_array_len v = Some n -> num (o_size n) = Some n) -> is_field num (o_field v) v.
Proof.
  intros v H Hn. split; [exact I|]. split; [eapply req_first; reflexivity|].
  split; [eapply req_first; [reflexivity|apply info_described; assumption]|]. split.
  - apply opt_first with (f := o_view); [reflexivity|intros; apply view_described|intros []; discriminate].
  - apply opt_first with (f := o_size); [reflexivity|intros n He; apply Hn; assumption|discriminate].
Qed.
Lemma struct_described : forall v, (forall f, In f (ss_fields v) -> small_info (sf_info f) /\
     forall n, sf_array_len f = Some n -> num (o_size n) = Some n) -> is_struct num (o_struct v) v.
Proof.
  intros v H. split; [exact I|]. split; [eapply req_first; reflexivity|].
  eapply req_first; [reflexivity|]. apply listed_first. intros f Hf. apply field_described; apply H; assumption.
Qed.
Lemma enum_described : forall v, NoDup (map fst (se_variants v)) ->
  (forall k n, In (k, n) (se_variants v) -> num (o_size n) = Some n) -> is_enum num (o_enum v) v.
Proof.
  intros v Hd Hn. split; [exact I|]. split; [eapply req_first; reflexivity|].
  eapply req_first; [reflexivity|]. eexists. split; [reflexivity|]. split.
  { apply Forall_forall. intros kx Hx. apply in_map_iff in Hx. destruct Hx as ((k & n) & <- & Hx). exists n.
    apply (Hn k). assumption. }
  split; [assumption|]. intros k n. split.
  - intro Hin. destruct (in_split _ _ Hin) as (v1 & v2 & E). rewrite E, map_app. cbn [map fst snd].
    exists (map (fun kn => (fst kn, o_size (snd kn))) v1), (o_size n), (map (fun kn => (fst kn, o_size (snd kn))) v2).
    split; [reflexivity|]. split; [|apply (Hn k); assumption].
    rewrite map_map. cbn [fst]. rewrite E, map_app in Hd. cbn [map fst] in Hd. apply NoDup_remove_2 in Hd.
    intro Hc. apply Hd. apply in_app_iff. right. exact Hc.
  - intros (l1 & x & l2 & He & _ & Hx).
    assert (Hin : In (k, x) (map (fun kn => (fst kn, o_size (snd kn))) (se_variants v)))
      by (rewrite He; apply in_app_iff; right; left; reflexivity).
    apply in_map_iff in Hin. destruct Hin as ((k' & n') & E & Hin). cbn in E. inversion E; subst.
    assert (n' = n) as -> by (pose proof (Hn _ _ Hin) as Q; unfold is_num in Hx; congruence). assumption.
Qed.

Lemma protocol_described : forall v, deliverable num v -> is_protocol num (o_protocol v) v.
Proof.
  intros v (Hs & Hm & He). split; [exact I|]. split; [eapply req_first; reflexivity|].
  split; [apply opt_first with (f := o_endianness); [reflexivity|reflexivity|discriminate]|].
  split; [apply list_first with (f := o_import); [reflexivity|intros; apply import_described]|].
  split; [apply list_first with (f := o_struct); [reflexivity|intros; apply struct_described; eauto]|].
  split; [apply list_first with (f := o_message); [reflexivity|intros; apply message_described; eauto]|].
  split; [apply list_first with (f := o_enum); [reflexivity|intros; apply enum_described; apply He; assumption]|].
  apply list_first with (f := o_union); [reflexivity|intros; apply union_described].
Qed.
End Numbers2.

Lemma protocol_means : forall num hash_order j v, (forall l, Permutation (hash_order l) l) ->
  de_protocol num hash_order j = Some v -> is_protocol num j v.
Proof. intros num hash_order j v Hp. apply (good_protocol num hash_order Hp). Qed.
Lemma protocol_accepts : forall num hash_order j v, (forall l, Permutation (hash_order l) l) ->
  is_protocol num j v -> exists v', de_protocol num hash_order j = Some v' /\ same_protocol v v'.
Proof.
  intros num hash_order j v Hp H. destruct (good_protocol num hash_order Hp) as (Hs & Ht).
  destruct (Ht j v H) as (v' & Hv). exists v'. split; [assumption|]. eapply protocol_same; [eassumption|]. apply Hs. assumption.
Qed.
Lemma protocol_expressible : forall num v, deliverable num v -> exists j, is_protocol num j v.
Proof. intros num v H. exists (o_protocol v). apply protocol_described. assumption. Qed.

Lemma name_once : forall num hash_order l, (forall x, ~ once l "name" x) -> de_protocol num hash_order (JObject l) = None.
Proof.
  intros num hash_order l H. unfold de_protocol, record. cbn [map_all].
  destruct (member_of l "name") as [o|] eqn:Ho; [|reflexivity].
  destruct o as [x|]; [exfalso; apply (H x); apply values_one|].
  { unfold member_of in Ho. destruct (values "name" l) as [|y [|]]; inversion Ho; reflexivity. }
  repeat match goal with |- context [match member_of ?a ?b with _ => _ end] => destruct (member_of a b) end; reflexivity.
Qed.

Lemma unknown_ignored : forall num hash_order l1 k x l2,
  ~ In k ["name"; "endianness"; "imports"; "structs"; "messages"; "enums"; "unions"] ->
  de_protocol num hash_order (JObject (l1 ++ (k, x) :: l2)) = de_protocol num hash_order (JObject (l1 ++ l2)).
Proof.
  intros num hash_order l1 k x l2 H. unfold de_protocol, record.
  assert (M : forall keys, ~ In k keys -> map_all (member_of (l1 ++ (k, x) :: l2)) keys = map_all (member_of (l1 ++ l2)) keys).
  { induction keys as [|a keys IH]; intro Hn; [reflexivity|]. cbn [map_all].
    rewrite IH by (intro; apply Hn; right; assumption).
    assert (E : member_of (l1 ++ (k, x) :: l2) a = member_of (l1 ++ l2) a); [|rewrite E; reflexivity].
    unfold member_of. rewrite !values_app.
    assert (values a ((k, x) :: l2) = values a l2) as ->; [|reflexivity].
    unfold values. cbn [filter fst]. destruct (String.eqb_spec k a) as [->|]; [exfalso; apply Hn; left; reflexivity|reflexivity]. }
  rewrite M by assumption. reflexivity.
Qed.
