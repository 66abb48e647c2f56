(** Names declared by the generated text (C73). *)

From Coq Require Import Arith NArith Ascii String List Bool Lia ZifyBool ZifyN ZifyNat.
From Verif Require Import Base Schema Codec Compiler Access Runtime Gen Template SpecTemplate Driver SpecComp StructFacts
  CompFacts GenText SpecGen SpecCode GenThms GenMsgThms GenAllThms ShowThms RunThms SpecNames HygieneThms.
Import ListNotations.
Local Open Scope string_scope.
Local Open Scope list_scope.

(** ** Words *)
Lemma plain_app : forall a b, plain a -> plain b -> plain (a ++ b)%string.
Proof. induction a as [|c a IH]; cbn; intros b Ha Hb; [exact Hb|]. destruct Ha. split; [assumption|apply IH; assumption]. Qed.
Lemma word_plain : forall a, plain a -> word a = a.
Proof. induction a as [|c a IH]; intro H; [reflexivity|]. destruct H as [H1 H2]. cbn [word]. rewrite H1, IH by exact H2. reflexivity. Qed.
Lemma word_end : forall a c r, plain a -> word_char c = false -> word (a ++ String c r)%string = a.
Proof.
  induction a as [|x a IH]; intros c r Ha Hc.
  - cbn [append word]. rewrite Hc. reflexivity.
  - destruct Ha as [H1 H2]. cbn [append word]. rewrite H1, IH by assumption. reflexivity.
Qed.
Lemma after_prefix : forall p s, after p (p ++ s)%string = Some s.
Proof. induction p as [|c p IH]; intro s; [reflexivity|]. cbn [append after]. rewrite Ascii.eqb_refl. apply IH. Qed.
Lemma named_app : forall p a b, named_after p (a ++ b) = named_after p a ++ named_after p b.
Proof. intros. unfold named_after. apply flat_map_app. Qed.
Lemma named_flat : forall {A} p (g : A -> list string) l, named_after p (flat_map g l) = flat_map (fun x => named_after p (g x)) l.
Proof. intros A p g. induction l as [|x l IH]; [reflexivity|]. cbn [flat_map]. rewrite named_app, IH. reflexivity. Qed.
Lemma named_cons : forall p x l, named_after p (x :: l) = named_after p [x] ++ named_after p l.
Proof. intros. change (x :: l) with ([x] ++ l). apply named_app. Qed.
Lemma named_one : forall p a n c r, plain a -> plain n -> word_char c = false ->
  named_after p [(p ++ a ++ n ++ String c r)%string] = [(a ++ n)%string].
Proof.
  intros p a n c r Ha Hn Hc. unfold named_after. cbn [flat_map]. rewrite after_prefix. cbn [List.app].
  rewrite <- sapp_assoc, word_end; [reflexivity|apply plain_app; assumption|exact Hc].
Qed.

(** ** Structures *)
Definition mp := "    pub fn ".
Lemma m_one : forall a n c r, plain a -> plain n -> word_char c = false ->
  methods [(mp ++ a ++ n ++ String c r)%string] = [(a ++ n)%string].
Proof. intros. unfold methods. apply named_one; assumption. Qed.
Lemma m_cons : forall x l, methods (x :: l) = methods [x] ++ methods l.
Proof. intros. apply named_cons. Qed.
(** Lines that are no methods. *)
Ltac no_methods := reflexivity.
Ltac one_method a n :=
  rewrite m_cons;
  match goal with |- ?x ++ ?l = _ =>
    replace l with (@nil string) by (symmetry; no_methods); rewrite app_nil_r end;
  eapply (m_one a n); [repeat split|assumption|reflexivity].

Lemma raw_getter_method : forall n a, plain n -> methods (raw_getter_lines n a) = [("get_raw_" ++ n)%string].
Proof. intros n a H. unfold raw_getter_lines. one_method "get_raw_" n. Qed.
Lemma raw_setter_method : forall n a, plain n -> methods (raw_setter_lines n a) = [("set_raw_" ++ n)%string].
Proof. intros n a H. unfold raw_setter_lines. one_method "set_raw_" n. Qed.
Lemma view_getter_method : forall path show f a, plain (ff_name f) ->
  methods (view_getter_lines path show f a) = [("get_" ++ ff_name f)%string].
Proof.
  intros path show f a H. unfold view_getter_lines.
  destruct (ff_view f); [| |destruct (ff_ty f)| |]; cbn [List.app]; one_method "get_" (ff_name f).
Qed.
Lemma view_setter_method : forall path show f a, plain (ff_name f) ->
  methods (view_setter_lines path show f a) = [("set_" ++ ff_name f)%string].
Proof.
  intros path show f a H. unfold view_setter_lines.
  destruct (ff_view f); [| |destruct (ff_ty f)|destruct (ff_ty f)|]; cbn [List.app]; one_method "set_" (ff_name f).
Qed.
Lemma gen_fixed_generates : forall {E} v, (1 <= l_bit_size (ff_loc v) <= 64)%N -> exists a, @gen_fixed E v = Ok a.
Proof.
  intros E v H. destruct (@unsigned_type_ok E (ff_loc v) H) as (t & Ht & _). unfold gen_fixed. rewrite Ht.
  cbn [bind]. eexists. reflexivity.
Qed.
Lemma m_mut : forall n c r, plain n -> word_char c = false ->
  methods [(mp ++ "get_" ++ n ++ "_mut" ++ String c r)%string] = [("get_" ++ n ++ "_mut")%string].
Proof.
  intros n c r Hn Hc. pose proof (m_one "get_" (n ++ "_mut") c r) as H. rewrite sapp_assoc in H. apply H.
  - repeat split.
  - apply plain_app; [exact Hn|repeat split].
  - exact Hc.
Qed.
Lemma getter_methods : forall path show f, field_generates f -> plain (field_name f) ->
  methods (getter_lines path show f) = getter_names f.
Proof.
  intros path show [v|v|name r loc] Hg Hn; cbn [field_generates field_name] in *; unfold getter_lines, getter_names; cbn [field_name].
  - destruct (@gen_fixed_generates Empty_set v Hg) as (a & ->).
    unfold methods. rewrite named_app. fold methods.
    rewrite (raw_getter_method _ a Hn). fold methods. change (named_after "    pub fn ") with methods.
    rewrite (view_getter_method path show v a Hn). reflexivity.
  - one_method "get_" (fa_name v).
  - one_method "get_" name.
Qed.
Lemma setter_methods : forall path show f, field_generates f -> plain (field_name f) ->
  methods (setter_lines path show f) = setter_names f.
Proof.
  intros path show [v|v|name r loc] Hg Hn; cbn [field_generates field_name] in *; unfold setter_lines, setter_names; cbn [field_name].
  - destruct (@gen_fixed_generates Empty_set v Hg) as (a & ->).
    unfold methods. rewrite named_app. fold methods. change (named_after "    pub fn ") with methods.
    rewrite (raw_setter_method _ a Hn). rewrite (view_setter_method path show v a Hn). reflexivity.
  - rewrite m_cons. match goal with |- ?x ++ ?l = _ => change l with (@nil string); rewrite app_nil_r end.
    eapply m_mut; [exact Hn|reflexivity].
  - rewrite m_cons. match goal with |- ?x ++ ?l = _ => change l with (@nil string); rewrite app_nil_r end.
    eapply m_mut; [exact Hn|reflexivity].
Qed.
Lemma methods_app : forall a b, methods (a ++ b) = methods a ++ methods b.
Proof. intros. apply named_app. Qed.
Lemma flat_map_in_ext : forall {A B} (f g : A -> list B) l, (forall x, In x l -> f x = g x) -> flat_map f l = flat_map g l.
Proof.
  intros A B f g. induction l as [|x l IH]; intro H; [reflexivity|]. cbn [flat_map].
  rewrite (H x (or_introl eq_refl)), IH; [reflexivity|]. intros y Hy. apply H. right. exact Hy.
Qed.
Theorem structure_methods : forall path show upper s, Forall field_generates (s_fields s) ->
  Forall (fun f => plain (field_name f)) (s_fields s) ->
  methods (structure_lines path show upper s) = method_names s.
Proof.
  intros path show upper s Hg Hp. rewrite Forall_forall in Hg, Hp. unfold structure_lines, method_names.
  rewrite !methods_app.
  replace (methods (flat_map (getter_lines path show) (s_fields s))) with (flat_map getter_names (s_fields s)).
  2:{ unfold methods. rewrite named_flat. apply flat_map_in_ext. intros f Hf. symmetry. apply getter_methods; auto. }
  replace (methods (flat_map (setter_lines path show) (s_fields s))) with (flat_map setter_names (s_fields s)).
  2:{ unfold methods. rewrite named_flat. apply flat_map_in_ext. intros f Hf. symmetry. apply setter_methods; auto. }
  change (methods (structure_head_lines (s_name s) (upper (s_name s)) (show_usize (s_byte_size s))))
    with ["new"; "new_on_stack"; "to_ref"; "to_mut"].
  cbn [List.app]. change (methods [_]) with (@nil string). change (methods [_; _; _]) with (@nil string).
  change (methods [_; _]) with (@nil string). cbn [List.app]. rewrite !app_nil_r. reflexivity.
Qed.

(** ** Distinctness *)
Definition disjoint {A} (a b : list A) : Prop := forall x, In x a -> ~ In x b.
Lemma nodup_app : forall {A} (a b : list A), NoDup (a ++ b) <-> NoDup a /\ NoDup b /\ disjoint a b.
Proof.
  intros A. induction a as [|x a IH]; intro b; cbn.
  - split; [intro H; repeat split; [constructor|exact H|intros x []]|intros (_ & H & _); exact H].
  - split.
    + intro H. inversion H as [|? ? H1 H2]; subst. apply IH in H2. destruct H2 as (Ha & Hb & Hd). repeat split.
      * constructor; [|exact Ha]. intro Hi. apply H1. apply in_or_app. left. exact Hi.
      * exact Hb.
      * intros y [<-|Hy]; [intro Hy; apply H1; apply in_or_app; right; exact Hy|apply Hd; exact Hy].
    + intros (Ha & Hb & Hd). inversion Ha as [|? ? H1 H2]; subst. constructor.
      * intro Hi. apply in_app_or in Hi. destruct Hi as [Hi|Hi]; [auto|]. exact (Hd x (or_introl eq_refl) Hi).
      * apply IH. repeat split; [exact H2|exact Hb|]. intros y Hy. apply Hd. right. exact Hy.
Qed.
Lemma nodup_flat : forall {A B} (F : A -> list B) l, NoDup (flat_map F l) <->
  (forall x, In x l -> NoDup (F x)) /\
  (forall i j x y, nth_error l i = Some x -> nth_error l j = Some y -> i <> j -> disjoint (F x) (F y)).
Proof.
  intros A B F. induction l as [|a l IH]; cbn [flat_map].
  - split; [|constructor]. intros _. split; [intros x []|]. intros [|i] j x y H; discriminate.
  - rewrite nodup_app, IH. split.
    + intros (Ha & (Hx & Hd) & Hda).
      assert (HR : forall y j, nth_error l j = Some y -> disjoint (F a) (F y)).
      { intros y j Hy z Hz Hz'. apply (Hda z Hz). apply in_flat_map. exists y. split; [eapply nth_error_In; exact Hy|exact Hz']. }
      split; [intros x [<-|H]; auto|].
      intros [|i] [|j] x y H1 H2 Hn; cbn in H1, H2.
      * congruence.
      * injection H1 as <-. eapply HR; exact H2.
      * injection H2 as <-. intros z Hz Hz'. exact (HR x i H1 z Hz' Hz).
      * apply (Hd i j); auto.
    + intros (Hx & Hd). repeat split.
      * apply Hx. left. reflexivity.
      * intros x H. apply Hx. right. exact H.
      * intros i j x y H1 H2 Hn. apply (Hd (Datatypes.S i) (Datatypes.S j)); auto.
      * intros z Hz Hz'. apply in_flat_map in Hz'. destruct Hz' as (y & Hy & Hz').
        apply In_nth_error in Hy. destruct Hy as (j & Hj).
        exact (Hd 0%nat (Datatypes.S j) a y eq_refl Hj ltac:(discriminate) z Hz Hz').
Qed.
Lemma sapp_inj_l : forall a b c : string, (a ++ b = a ++ c)%string -> b = c.
Proof. induction a as [|x a IH]; intros b c H; [exact H|]. cbn in H. injection H as H. apply IH, H. Qed.
Lemma mut_longer : forall n : string, n <> (n ++ "_mut")%string.
Proof.
  intros n E. assert (H : String.length n = String.length (n ++ "_mut")) by (rewrite <- E; reflexivity).
  clear E. induction n as [|c n IH]; cbn in H; [discriminate|]. apply IH. lia.
Qed.
Lemma raw_longer : forall n : string, n <> ("raw_" ++ n)%string.
Proof.
  intros n E. assert (H : String.length n = String.length ("raw_" ++ n)) by (rewrite <- E; reflexivity). cbn in H. lia.
Qed.
Lemma in_get : forall f, In ("get_" ++ field_name f)%string (getter_names f).
Proof. intros [v|v|n r l]; cbn; auto. Qed.
Lemma in_get_raw : forall f, is_scalar f -> In ("get_raw_" ++ field_name f)%string (getter_names f).
Proof. intros [v|v|n r l] H; cbn; auto; destruct H. Qed.
Lemma in_mut : forall f, ~ is_scalar f -> In ("get_" ++ field_name f ++ "_mut")%string (setter_names f).
Proof. intros [v|v|n r l] H; cbn; auto. exfalso. apply H. exact I. Qed.
Lemma getter_cases : forall f x, In x (getter_names f) ->
  x = ("get_" ++ field_name f)%string \/ is_scalar f /\ x = ("get_" ++ "raw_" ++ field_name f)%string.
Proof. intros [v|v|n r l] x H; cbn in *; intuition. Qed.
Lemma setter_cases : forall f x, In x (setter_names f) ->
  is_scalar f /\ (x = ("set_" ++ field_name f)%string \/ x = ("set_" ++ "raw_" ++ field_name f)%string) \/
  ~ is_scalar f /\ x = ("get_" ++ field_name f ++ "_mut")%string.
Proof. intros [v|v|n r l] x H; cbn in *; intuition. Qed.

Theorem method_names_distinct : forall s, NoDup (method_names s) <-> no_clash (s_fields s).
Proof.
  intro s. unfold method_names. set (fs := s_fields s). rewrite nodup_app, nodup_app, !nodup_flat. split.
  - intros (_ & ((_ & HG) & (_ & HS) & HGS) & _).
    assert (HI : forall i j f g, nth_error fs i = Some f -> nth_error fs j = Some g -> field_name f = field_name g -> i = j).
    { intros i j f g Hi Hj E. destruct (Nat.eq_dec i j) as [e|n]; [exact e|]. exfalso.
      apply (HG i j f g Hi Hj n _ (in_get f)). rewrite E. apply in_get. }
    repeat split.
    + apply NoDup_nth_error. intros i j Hi E. rewrite map_length in Hi. rewrite !nth_error_map in E.
      destruct (nth_error fs i) as [f|] eqn:Hf; [|apply nth_error_None in Hf; lia].
      destruct (nth_error fs j) as [g|] eqn:Hg; [|discriminate]. cbn in E. injection E as E. eapply HI; eassumption.
    + intros f g Hf Hg Hs E. apply In_nth_error in Hf. apply In_nth_error in Hg.
      destruct Hf as (i & Hi). destruct Hg as (j & Hj). destruct (Nat.eq_dec i j) as [->|n].
      * assert (f = g) by congruence. subst. apply (raw_longer (field_name g)). exact E.
      * apply (HG i j f g Hi Hj n _ (in_get_raw f Hs)). pose proof (in_get g) as H. rewrite E in H. exact H.
    + intros f g Hf Hg Hs E. apply (HGS ("get_" ++ field_name g)%string).
      * apply in_flat_map. exists g. split; [exact Hg|apply in_get].
      * apply in_flat_map. exists f. split; [exact Hf|]. rewrite E. apply in_mut. exact Hs.
    + intros f g Hf Hg Hs Hg' E. apply (HGS ("get_raw_" ++ field_name f)%string).
      * apply in_flat_map. exists f. split; [exact Hf|apply in_get_raw; exact Hs].
      * apply in_flat_map. exists g. split; [exact Hg|]. change ("get_raw_" ++ field_name f)%string with ("get_" ++ "raw_" ++ field_name f)%string.
        rewrite E. apply in_mut. exact Hg'.
  - intros (HN & HR & HM & HB).
    assert (HI : forall i j f g, nth_error fs i = Some f -> nth_error fs j = Some g -> i <> j -> field_name f <> field_name g).
    { intros i j f g Hi Hj Hn E. apply Hn. apply (proj1 (NoDup_nth_error (map field_name fs)) HN).
      - rewrite map_length. apply nth_error_Some. congruence.
      - rewrite !nth_error_map, Hi, Hj. cbn. congruence. }
    split; [|split].
    + repeat constructor; cbn; intuition discriminate.
    + split; [split|split; [split|]].
      * intros [v|v|n r l] _; cbn; repeat constructor; cbn; try tauto.
        intros [E|[]]. apply (raw_longer (ff_name v)). apply (sapp_inj_l "get_"). exact E.
      * intros i j f g Hi Hj Hn x Hx Hy. pose proof (HI i j f g Hi Hj Hn) as Hne.
        apply nth_error_In in Hi. apply nth_error_In in Hj.
        apply getter_cases in Hx. apply getter_cases in Hy.
        destruct Hx as [->|[Sf ->]], Hy as [E|[Sg E]]; apply sapp_inj_l in E.
        -- exact (Hne E).
        -- exact (HR g f Hj Hi Sg E).
        -- exact (HR f g Hi Hj Sf (eq_sym E)).
        -- apply sapp_inj_l in E. exact (Hne E).
      * intros [v|v|n r l] _; cbn; repeat constructor; cbn; try tauto.
        intros [E|[]]. apply (raw_longer (ff_name v)). apply (sapp_inj_l "set_"). exact E.
      * intros i j f g Hi Hj Hn x Hx Hy. pose proof (HI i j f g Hi Hj Hn) as Hne.
        apply nth_error_In in Hi. apply nth_error_In in Hj.
        apply setter_cases in Hx. apply setter_cases in Hy.
        destruct Hx as [[Sf [->| ->]]|[Sf ->]], Hy as [[Sg [E|E]]|[Sg E]]; try discriminate E; apply sapp_inj_l in E.
        -- exact (Hne E).
        -- exact (HR g f Hj Hi Sg E).
        -- exact (HR f g Hi Hj Sf (eq_sym E)).
        -- apply sapp_inj_l in E. exact (Hne E).
        -- apply sapp_inj_r in E. exact (Hne E).
      * intros x Hx Hy. apply in_flat_map in Hx. apply in_flat_map in Hy.
        destruct Hx as (f & Hf & Hx). destruct Hy as (g & Hg & Hy).
        apply getter_cases in Hx. apply setter_cases in Hy.
        destruct Hx as [->|[Sf ->]], Hy as [[Sg [E|E]]|[Sg E]]; try discriminate E; apply sapp_inj_l in E.
        -- exact (HM g f Hg Hf Sg E).
        -- exact (HB f g Hf Hg Sf Sg E).
    + intros x Hx Hy. apply in_app_or in Hy. destruct Hy as [Hy|Hy]; apply in_flat_map in Hy; destruct Hy as (f & _ & Hy);
        [apply getter_cases in Hy|apply setter_cases in Hy]; cbn in Hx;
        destruct Hx as [<-|[<-|[<-|[<-|[]]]]]; intuition discriminate.
Qed.
