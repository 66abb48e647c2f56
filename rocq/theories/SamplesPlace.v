(** Samples for C99. *)

From Coq Require Import Arith NArith ZArith Ascii String List Bool Lia.
From Verif Require PlaceExact.
From Verif Require Import Base Schema Codec Compiler Access SpecStruct StructFacts StructRefute Samples SpecNest SamplesNest SamplesPatch Place SpecPlace.
Import ListNotations.
Local Open Scope N_scope.
Local Open Scope string_scope.

Definition frame_structs : smap structure := sinsert "Frame" frame_s (sinsert "Body" body_s nest_structs).
Lemma frame_built : built Debug frame_structs.
Proof.
  assert (H1 : built Debug nest_structs).
  { apply (built_def Debug [] [] 0 {| ss_name := "Word"; ss_fields := [scalar "lo" (STUnsigned 4); scalar "hi" (STUnsigned 12)] |} word_s "Word" []);
      [apply built_nil|vm_compute; reflexivity|apply no_overflow_debug|apply built_nil]. }
  assert (H2 : built Debug (sinsert "Body" body_s nest_structs)).
  { apply (built_def Debug [] nest_structs 0 body_d body_s "Body" nest_structs); [exact H1|vm_compute; reflexivity|apply no_overflow_debug|exact H1]. }
  apply (built_def Debug [] (sinsert "Body" body_s nest_structs) 0 frame_d frame_s "Frame" _); [exact H2|vm_compute; reflexivity|apply no_overflow_debug|exact H2].
Qed.
(** [body().word().hi], [body().items()] item 1, and [sum]. *)
Definition hi_p : place := {| pl_path := [2; 2; 1]%nat; pl_item := None |}.
Definition item_p : place := {| pl_path := [2; 3]%nat; pl_item := Some 1 |}.
Definition sum_p : place := {| pl_path := [3]%nat; pl_item := None |}.

Ltac place_in :=
  lazymatch goal with
  | |- at_place ?s (?k :: ?rest) ?i ?o ?w =>
      let f := eval vm_compute in (nth_error (s_fields s) k) in
      let b := eval vm_compute in (total_bits (firstn k (s_fields s))) in
      lazymatch f with
      | Some (FFixed ?x) => exact (at_scalar s k x eq_refl)
      | Some (FArray ?x) =>
          lazymatch i with Some ?n => refine (at_item s k x n w eq_refl eq_refl eq_refl _); vm_compute; discriminate end
      | Some (FStruct ?nm ?r ?loc) =>
          let d := eval vm_compute in (o - b) in
          refine (at_inside s k nm r loc rest i d w eq_refl _); place_in
      end
  end.
Ltac reach := split; [cbn [pl_path pl_item]; place_in|]; vm_compute; repeat split; solve [discriminate|reflexivity|auto].
Lemma hi_reach : reachable frame_s hi_p 28 12.
Proof. unfold hi_p. reach. Qed.
Lemma item_reach : reachable frame_s item_p 56 16.
Proof. unfold item_p. reach. Qed.
Lemma sum_reach : reachable frame_s sum_p 72 16.
Proof. unfold sum_p. reach. Qed.
Definition frame_h : list (place * N) := [(item_p, 513); (hi_p, 4097); (item_p, 65538)].

(** A structure that starts inside of a byte: [low().v] and [h]. *)
Definition odd_structs : smap structure := sinsert "Odd" odd_x (sinsert "Low" odd_g []).
Lemma odd_built : built Debug odd_structs.
Proof.
  assert (H1 : built Debug (sinsert "Low" odd_g [])).
  { apply (built_def Debug [] [] 0 odd_grp odd_g "Low" []); [apply built_nil|vm_compute; reflexivity|apply no_overflow_debug|apply built_nil]. }
  apply (built_def Debug [] (sinsert "Low" odd_g []) 0 odd_outer odd_x "Odd" _); [exact H1|vm_compute; reflexivity|apply no_overflow_debug|exact H1].
Qed.
Lemma shared_refuted : exists s p q v buf buf',
  sget "Odd" odd_structs = Some s /\ built Debug odd_structs /\
  at_place s (pl_path p) (pl_item p) 4 4 /\ at_place s (pl_path q) (pl_item q) 0 4 /\ len buf = s_byte_size s /\ bytes_ok buf /\
  place_get (E:=cerror) Debug s q buf = Ok 0 /\ place_set (E:=cerror) Debug s p buf v = Ok buf' /\ place_get (E:=cerror) Debug s q buf' = Ok 5.
Proof.
  exists odd_x, {| pl_path := [1; 0]%nat; pl_item := None |}, {| pl_path := [0]%nat; pl_item := None |}, 5, [0], [5].
  split; [reflexivity|]. split; [exact odd_built|]. split; [cbn [pl_path pl_item]; place_in|]. split; [cbn [pl_path pl_item]; place_in|].
  split; [reflexivity|]. split; [repeat constructor|]. vm_compute. auto.
Qed.

(** Both coordinates of a position in a message of a list in a message (SamplesPatch.v). *)
Definition x_p : place := {| pl_path := [0]%nat; pl_item := None |}.
Definition y_p : place := {| pl_path := [1]%nat; pl_item := None |}.
Definition pos_structs : smap structure := sinsert "Pos" pos_s [].
Lemma pos_built : built Debug pos_structs.
Proof. apply (built_def Debug [] [] 0 pos_d pos_s "Pos" []); [apply built_nil|vm_compute; reflexivity|apply no_overflow_debug|apply built_nil]. Qed.
Lemma x_reach : reachable pos_s x_p 0 12.
Proof. unfold x_p. reach. Qed.
Lemma y_reach : reachable pos_s y_p 12 12.
Proof. unfold y_p. reach. Qed.
Definition pos_h : list (place * N) := [(y_p, 291); (x_p, 1110)].

Lemma usual_map : forall n s (l : smap structure), usual s -> (forall k r, sget k l = Some r -> usual r) ->
  forall k r, sget k (sinsert n s l) = Some r -> usual r.
Proof. intros n s l H Hl k r Hk. cbn [sget sinsert] in Hk. destruct (String.eqb k n); [injection Hk as <-; exact H|exact (Hl k r Hk)]. Qed.
Ltac plain_fields := intros f Hf; cbn in Hf; repeat (destruct Hf as [<-|Hf]; [split; [discriminate|discriminate]|]); contradiction.
Lemma frame_usual : usual frame_s.
Proof.
  assert (H1 : usual word_s).
  { apply (PlaceExact.usual_compiled Debug [] [] 0 {| ss_name := "Word"; ss_fields := [scalar "lo" (STUnsigned 4); scalar "hi" (STUnsigned 12)] |} word_s);
      [vm_compute; reflexivity|apply no_overflow_debug|plain_fields|discriminate]. }
  assert (H2 : usual body_s).
  { apply (PlaceExact.usual_compiled Debug [] nest_structs 0 body_d body_s); [vm_compute; reflexivity|apply no_overflow_debug|plain_fields|].
    apply (usual_map "Word" word_s []); [exact H1|discriminate]. }
  apply (PlaceExact.usual_compiled Debug [] (sinsert "Body" body_s nest_structs) 0 frame_d frame_s); [vm_compute; reflexivity|apply no_overflow_debug|plain_fields|].
  apply usual_map; [exact H2|]. apply (usual_map "Word" word_s []); [exact H1|discriminate].
Qed.
Lemma odd_usual : usual odd_x.
Proof.
  assert (H1 : usual odd_g).
  { apply (PlaceExact.usual_compiled Debug [] [] 0 odd_grp odd_g); [vm_compute; reflexivity|apply no_overflow_debug|plain_fields|discriminate]. }
  apply (PlaceExact.usual_compiled Debug [] (sinsert "Low" odd_g []) 0 odd_outer odd_x); [vm_compute; reflexivity|apply no_overflow_debug|plain_fields|].
  apply usual_map; [exact H1|discriminate].
Qed.
