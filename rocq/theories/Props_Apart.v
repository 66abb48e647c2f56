(** Property theorems C83: protocols that import each other, each generated by a run of its own.
    [mc] is the build profile of the compiler and [mr] the one of the program. *)

From Coq Require Import Arith NArith String List Bool.
From Verif Require Import Base Schema Compiler Access Runtime Gen Loader SpecLoader SpecWire SpecRun SpecExact SpecWalk SpecApart ApartThms ApartRefute WalkApart.
Import ListNotations.
Local Open Scope N_scope.
Local Open Scope string_scope.

(** What a later run imports is the very protocol that was generated. *)
Theorem C83_same : forall m sep l1 v p w, run_gives m sep l1 v p w -> forall path l2 v' p' w',
  run_gives m sep (l1 ++ (path, v) :: l2)%list v' p' w' ->
  exists seen w0 seen' w1, imports_run m sep [] world_new l1 seen w0 /\ imports_run m sep (seen ++ [(path, p)])%list w l2 seen' w1 /\
    protocol_from_model m (visible sep seen') w1 v' = Ok (p', w').
Proof. exact runs_same. Qed.
Print Assumptions C83_same.

(** The program exists: its runs agree on what they generate. *)
Theorem C83_program : forall m sep l seen w, imports_run m sep [] world_new l seen w -> exists emb, program m sep l emb.
Proof. exact program_exists. Qed.
Print Assumptions C83_program.

(** What a later run knows about a message that was generated before: exactly the lists of the
    protocols in between are added. *)
Theorem C83_marks : forall m sep l1 path v p w l2 path' v' p' w' y, run_gives m sep l1 v p w -> In y (p_messages p) ->
  run_gives m sep (l1 ++ (path, v) :: l2)%list v' p' w' ->
  (marked w' (m_id y) = true <-> marked w (m_id y) = true \/
   exists e b u e' q t z, (l2 ++ [(path', v')] = e ++ (b, u) :: e')%list /\ run_gives m sep (l1 ++ (path, v) :: e)%list u q t /\
     In z (p_messages q) /\ lists_message z y).
Proof. exact runs_marks. Qed.
Print Assumptions C83_marks.

(** If no message has a list of an imported message that has a list itself, then the program
    reads as if everything had been generated by the last run. *)
Theorem C83_read_partial : forall mc mr sep earlier path v p w emb, program mc sep (earlier ++ [(path, v)])%list emb ->
  run_gives mc sep earlier v p w ->
  (forall e b u e' q t, (earlier ++ [(path, v)] = e ++ (b, u) :: e')%list -> run_gives mc sep e u q t -> ~ lists_imported q) ->
  forall x, In x (p_messages p) -> forall b, read_msg mr emb x b = read_msg mr (marked w) x b.
Proof. exact apart_read. Qed.
Print Assumptions C83_read_partial.

Example C83_nonvacuous :
  (exists emb, program Debug "::" [("crate::base", base_v); ("crate::boxes", boxes_v)] emb) /\
  run_gives Debug "::" [("crate::base", base_v)] boxes_v (fst boxes_pw) (snd boxes_pw) /\
  (forall e b u e' q t, ([("crate::base", base_v)] ++ [("crate::boxes", boxes_v)] = e ++ (b, u) :: e')%list ->
     run_gives Debug "::" e u q t -> ~ lists_imported q) /\
  exists x, nth_error (p_messages (fst boxes_pw)) 0 = Some x /\ m_name x = "Box" /\ marked (snd boxes_pw) (m_id x) = true.
Proof.
  split; [exact boxes_program|]. split; [exact boxes_run|]. split; [exact boxes_guard|]. eexists. repeat split; reflexivity.
Qed.

(** A message whose part is imported is rejected although a reader that is generated in one
    run, from one protocol with the same messages, accepts it. *)
Theorem C83_read_refuted : exists path base more one p w q t x v b,
  run_gives Debug "::" [(path, base)] more p w /\ run_gives Debug "::" [] one q t /\
  In x (p_messages p) /\ In x (p_messages q) /\ (forall m, encodes m x v b) /\
  (forall m, read_msg m (marked w) x b = Ok (len b, v)) /\
  (forall m emb, generated_in t q emb -> read_msg m emb x b = Ok (len b, v)) /\
  forall m emb path', program Debug "::" [(path, base); (path', more)] emb -> read_msg m emb x b = Err Truncated.
Proof. exact apart_refuted. Qed.
Print Assumptions C83_read_refuted.

(** What the program accepts, a program generated by the last run alone reads alike exactly if it
    finds in every list that it walks the items that the list counts; in any case if bytes follow
    the message. *)
Theorem C83_accepted_exact : forall mc mr sep earlier path v p w emb, program mc sep (earlier ++ [(path, v)])%list emb ->
  run_gives mc sep earlier v p w ->
  forall x b n z, In x (p_messages p) -> len b < 2 ^ 64 -> bytes_ok b -> read_msg mr emb x b = Ok (n, z) ->
  (n < len b -> read_msg mr (marked w) x b = Ok (n, z)) /\
  (read_msg mr (marked w) x b = Ok (n, z) <-> walkable mr (marked w) x z).
Proof. exact apart_accepted. Qed.
Print Assumptions C83_accepted_exact.

(** A list of messages from another run that are read alike. *)
Example C83_accepted_nonvacuous : exists emb, program Debug "::" ([("crate::base", base_v)] ++ [("crate::more", more_v)])%list emb /\
  run_gives Debug "::" [("crate::base", base_v)] more_v (fst more_pw) (snd more_pw) /\
  In outer_m (p_messages (fst more_pw)) /\
  forall m, read_msg m emb outer_m [1; 1; 7] = Ok (3, VMsg [VListing [1; 7] 1]) /\
    walkable m (marked (snd more_pw)) outer_m (VMsg [VListing [1; 7] 1]).
Proof.
  destruct more_program as (emb & H). exists emb. split; [exact H|]. split; [apply more_run|]. split; [left; reflexivity|].
  intro m. assert (R : read_msg m emb outer_m [1; 1; 7] = Ok (3, VMsg [VListing [1; 7] 1])).
  { apply read_one.
    - rewrite (H [("crate::base", base_v)] "crate::more" more_v [] _ _ eq_refl (more_run Debug) outer_m); [reflexivity|]. left. reflexivity.
    - rewrite (H [] "crate::base" base_v [("crate::more", more_v)] _ _ eq_refl (base_run Debug) inner_m); [reflexivity|]. right. left. reflexivity. }
  split; [exact R|].
  assert (L : len [1; 1; 7] < 2 ^ 64) by reflexivity. assert (B : bytes_ok [1; 1; 7]) by (repeat constructor).
  apply (proj2 (C83_accepted_exact Debug m "::" [("crate::base", base_v)] "crate::more" more_v (fst more_pw) (snd more_pw) emb H (more_run Debug)
    outer_m [1; 1; 7] _ _ (or_introl eq_refl) L B R)). destruct m; vm_compute; reflexivity.
Qed.
