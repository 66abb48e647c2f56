(** Samples for C100. *)

From Coq Require Import Arith NArith ZArith Ascii String List Bool Lia.
From Verif Require Import Base Schema Codec Compiler Access SpecStruct StructFacts StructRefute Samples SpecNest SamplesNest Place SpecPlace SamplesPlace Calls SpecCalls.
Import ListNotations.
Local Open Scope N_scope.
Local Open Scope string_scope.

(** A signed field of 5 bits, a flag and a colour in one byte, in a structure. *)
Definition axis_d : sstruct :=
  {| ss_name := "Axis"; ss_fields := [scalar "bend" (STSigned 5); scalar "on" (STBoolean 1);
       {| sf_name := "color"; sf_info := STUnsigned 2; sf_view := Some (SVEnum "Color"); sf_array_len := None |}] |}.
Definition axis_s : structure := Eval vm_compute in compile_one Debug sample_enums [] axis_d.
Definition pose_d : sstruct :=
  {| ss_name := "Pose"; ss_fields := [scalar "id" (STUnsigned 8); scalar "axis" (STStruct "Axis"); scalar "temp" (STSigned 16);
       {| sf_name := "items"; sf_info := STUnsigned 16; sf_view := None; sf_array_len := Some 2 |}] |}.
Definition axis_m : smap structure := sinsert "Axis" axis_s [].
Definition pose_s : structure := Eval vm_compute in compile_one Debug sample_enums axis_m pose_d.
Definition pose_structs : smap structure := sinsert "Pose" pose_s axis_m.
Lemma pose_built : built Debug pose_structs.
Proof.
  assert (H1 : built Debug axis_m).
  { apply (built_def Debug sample_enums [] 0 axis_d axis_s "Axis" []); [apply built_nil|vm_compute; reflexivity|apply no_overflow_debug|apply built_nil]. }
  apply (built_def Debug sample_enums axis_m 0 pose_d pose_s "Pose" axis_m); [exact H1|vm_compute; reflexivity|apply no_overflow_debug|exact H1].
Qed.
Definition at_ (path : list nat) : place := {| pl_path := path; pl_item := None |}.
Definition cell_p : place := {| pl_path := [3]%nat; pl_item := Some 1 |}.
Lemma bend_reach : reachable pose_s (at_ [1; 0]%nat) 8 5.
Proof. unfold at_. reach. Qed.
Lemma on_reach : reachable pose_s (at_ [1; 1]%nat) 13 1.
Proof. unfold at_. reach. Qed.
Lemma color_reach : reachable pose_s (at_ [1; 2]%nat) 14 2.
Proof. unfold at_. reach. Qed.
Lemma temp_reach : reachable pose_s (at_ [2]%nat) 16 16.
Proof. unfold at_. reach. Qed.
Lemma cell_reach : reachable pose_s cell_p 48 16.
Proof. unfold cell_p. reach. Qed.
Definition pose_h : list call :=
  [CView [1; 0]%nat (XInt (-3)); CRaw cell_p 65535; CView [1; 1]%nat (XBool true); CView [2]%nat (XInt (-300));
   CView [1; 2]%nat (XEnum (Some 2)); CView [1; 0]%nat (XInt (-16))].
Lemma pose_calls : forall c, In c pose_h -> exists o w, reachable pose_s (target c) o w.
Proof.
  intros c H. cbn in H. repeat (destruct H as [<-|H]; [cbn [target];
    first [exists 8, 5; exact bend_reach|exists 48, 16; exact cell_reach|exists 13, 1; exact on_reach|exists 16, 16; exact temp_reach|exists 14, 2; exact color_reach]|]).
  contradiction.
Qed.
Fixpoint scalar_of (s : structure) (path : list nat) : option fixed_field :=
  match path with
  | [] => None
  | i :: rest => match nth_error (s_fields s) i with
                 | Some (FFixed f) => Some f
                 | Some (FStruct _ r _) => scalar_of r rest
                 | _ => None
                 end
  end.
Lemma scalar_is : forall s path f, scalar_at s path f -> scalar_of s path = Some f.
Proof. intros s path f H. induction H as [s i f Hf|s i nm r loc rest f Hf H IH]; cbn [scalar_of]; rewrite Hf; [reflexivity|exact IH]. Qed.
Lemma pose_values : forall path x f, In (CView path x) pose_h -> scalar_at pose_s path f -> representable f x.
Proof.
  intros path x f H Hf. cbn in H.
  destruct H as [H|[H|[H|[H|[H|[H|[]]]]]]]; try discriminate H; injection H as <- <-; apply scalar_is in Hf; cbn in Hf; injection Hf as <-; vm_compute; repeat split; solve [discriminate|reflexivity|auto].
Qed.

(** Two fields that share bits (SamplesNest.v), through their views. *)
Lemma views_shared : exists s path path' f x buf buf',
  sget "Odd" odd_structs = Some s /\ built Debug odd_structs /\ at_place s path None 4 4 /\ at_place s path' None 0 4 /\
  scalar_at s path f /\ representable f x /\ len buf = s_byte_size s /\ bytes_ok buf /\
  follow_view_get (E:=cerror) Debug s path' buf = Ok (XInt 0) /\ make_call (E:=cerror) Debug s (CView path x) buf = Ok buf' /\
  follow_view_get (E:=cerror) Debug s path' buf' = Ok (XInt 5).
Proof.
  exists odd_x, [1; 0]%nat, [0]%nat. eexists. exists (XInt 5), [0], [5].
  split; [reflexivity|]. split; [exact odd_built|]. split; [place_in|]. split; [place_in|].
  split; [eapply sc_in; [reflexivity|]; apply sc_here; reflexivity|].
  split; [vm_compute; split; [discriminate|reflexivity]|]. split; [reflexivity|]. split; [repeat constructor|]. vm_compute. auto.
Qed.
