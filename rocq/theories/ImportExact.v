(** What every name refers to after compilation, imports included, for C21_names_exact. *)

From Coq Require Import Arith NArith ZArith Ascii String List Bool Lia.
From Verif Require Import Base Schema Codec Compiler StructFacts SpecComp CompFacts CompThms ScopeThms SpecItems ItemsThms.
Import ListNotations.
Local Open Scope string_scope.

Lemma or_else_none : forall A (x : option A), or_else x None = x.
Proof. intros A [x|]; reflexivity. Qed.
Lemma or_else_assoc : forall A (x y z : option A), or_else (or_else x y) z = or_else x (or_else y z).
Proof. intros A [x|] y z; reflexivity. Qed.

Definition here {A} (kind : protocol -> string -> option A) (solver : resolver) (i : simport) (n : string) : option A :=
  if String.eqb (si_type i) n
  then match r_protocol solver (si_protocol i) with Some q => kind q n | None => None end else None.

Lemma import_tables : forall solver p i p', import_one solver p i = Ok p' -> forall n,
  sget n (p_structs_by_name p') = or_else (here struct_there solver i n) (sget n (p_structs_by_name p)) /\
  sget n (p_enums_by_name p') = or_else (here enum_there solver i n) (sget n (p_enums_by_name p)) /\
  sget n (p_unions_by_name p') = or_else (here union_there solver i n) (sget n (p_unions_by_name p)) /\
  sget n (p_messages_by_name p') = or_else (here message_there solver i n) (sget n (p_messages_by_name p)).
Proof.
  intros solver p i p' H n. unfold import_one in H. apply bind_ok in H. destruct H as (q & Hq & H). cbv zeta in H.
  destruct (r_protocol solver (si_protocol i)) as [q'|] eqn:Er; [|discriminate]. cbn in Hq. injection Hq as ->.
  unfold here. rewrite Er. unfold struct_there, enum_there, union_there, message_there, struct_there.
  destruct (String.eqb_spec (si_type i) n) as [En|En].
  - subst n.
    destruct (sget (si_type i) (p_structs_by_name q)); [|destruct (sget (si_type i) (p_enums_by_name q));
      [|destruct (sget (si_type i) (p_unions_by_name q)); [|destruct (sget (si_type i) (p_messages_by_name q)); [|discriminate]]]];
      repeat (apply bind_ok in H; destruct H as (? & ? & H)); inversion H; subst; cbn; rewrite ?String.eqb_refl;
      repeat match goal with H : ok_or (Some _) _ = Ok _ |- _ => cbn in H; injection H as <- end; repeat split; reflexivity.
  - assert (E : String.eqb n (si_type i) = false) by (apply String.eqb_neq; congruence).
    destruct (sget (si_type i) (p_structs_by_name q)); [|destruct (sget (si_type i) (p_enums_by_name q));
      [|destruct (sget (si_type i) (p_unions_by_name q)); [|destruct (sget (si_type i) (p_messages_by_name q)); [|discriminate]]]];
      repeat (apply bind_ok in H; destruct H as (? & ? & H)); inversion H; subst; cbn; rewrite ?E; repeat split; reflexivity.
Qed.

Lemma imports_tables : forall solver l p p', foldM (import_one solver) p l = Ok p' -> forall n,
  sget n (p_structs_by_name p') = or_else (last_import struct_there solver l n) (sget n (p_structs_by_name p)) /\
  sget n (p_enums_by_name p') = or_else (last_import enum_there solver l n) (sget n (p_enums_by_name p)) /\
  sget n (p_unions_by_name p') = or_else (last_import union_there solver l n) (sget n (p_unions_by_name p)) /\
  sget n (p_messages_by_name p') = or_else (last_import message_there solver l n) (sget n (p_messages_by_name p)).
Proof.
  intros solver. induction l as [|i l IH]; intros p p' H n; cbn [foldM] in H.
  - injection H as <-. repeat split; reflexivity.
  - apply bind_ok in H. destruct H as (p1 & H1 & H). specialize (IH _ _ H n). pose proof (import_tables _ _ _ _ H1 n) as Hi.
    cbn [last_import]. fold (here struct_there solver i n) (here enum_there solver i n) (here union_there solver i n) (here message_there solver i n).
    rewrite !or_else_assoc. destruct IH as (A & B & C & D), Hi as (A' & B' & C' & D'). rewrite A, B, C, D, A', B', C', D'. repeat split.
Qed.

Theorem names_exact : forall m solver w v p w', protocol_from_model m solver w v = Ok (p, w') -> forall n,
  sget n (p_structs_by_name p) = or_else (named_last s_name (p_structs p) n) (last_import struct_there solver (sp_imports v) n) /\
  sget n (p_enums_by_name p) = or_else (named_last e_name (p_enums p) n) (last_import enum_there solver (sp_imports v) n) /\
  sget n (p_unions_by_name p) = or_else (named_last u_name (p_unions p) n) (last_import union_there solver (sp_imports v) n) /\
  sget n (p_messages_by_name p) = or_else (named_last m_name (p_messages p) n) (last_import message_there solver (sp_imports v) n).
Proof.
  intros m solver w v p w' H n. destruct (protocol_names _ _ _ _ _ _ H) as (q & wq & Hq & Hn). specialize (Hn n).
  unfold protocol_from_model, only_imports in Hq. cbn [sp_name sp_endianness sp_imports sp_structs sp_messages sp_enums sp_unions] in Hq.
  apply bind_ok in Hq. destruct Hq as (p1 & H1 & Hq). cbn in Hq. injection Hq as <- <-.
  pose proof (imports_tables _ _ _ _ H1 n) as (A & B & C & D). cbn [protocol_empty p_structs_by_name p_enums_by_name p_unions_by_name p_messages_by_name sget] in *.
  rewrite or_else_none in A, B, C, D. rewrite A, B, C, D in Hn. tauto.
Qed.
