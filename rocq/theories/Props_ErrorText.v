(** Property theorems for C94: the text of an error tells the error, and the name in it is one of the
    description. The texts are in ErrorText; [written] is in SpecErrorText. *)

From Coq Require Import Arith NArith ZArith Ascii String List Bool Lia.
From Verif Require Import Base Schema Compiler Loader Template Runtime SpecComp SpecAccept ErrorText SpecErrorText ErrorTextThms PanicThms
  SamplesErrorText.
Import ListNotations.
Local Open Scope N_scope.
Local Open Scope string_scope.

(** Whatever two descriptions failed with: the same text means the same error, with the same name or
    number. [quoted], the way Rust prints a string for debugging, does not matter. *)
Theorem C94_compiler : forall quoted m1 solver1 w1 v1 e1 m2 solver2 w2 v2 e2,
  protocol_from_model m1 solver1 w1 v1 = Err e1 -> protocol_from_model m2 solver2 w2 v2 = Err e2 ->
  cerror_text quoted e1 = cerror_text quoted e2 -> e1 = e2.
Proof. exact reported_told. Qed.
Print Assumptions C94_compiler.

(** So do all the errors of the tool, the ones no description leads to included, if different strings are
    printed differently. *)
Theorem C94_tool : forall quoted, (forall s s', quoted s = quoted s' -> s = s') ->
  forall e e', tool_error_text quoted e = tool_error_text quoted e' -> e = e'.
Proof. exact tool_text_inj. Qed.
Print Assumptions C94_tool.

(** The errors of the runtime: the kind, and the number of a discriminant. *)
Theorem C94_runtime : forall io io' e e', rerror_text io e = rerror_text io' e' -> e = e'.
Proof. exact rerror_text_inj. Qed.
Print Assumptions C94_runtime.

(** The name of an undefined reference is in the text. It is written so in the description, unless it is
    found missing behind the second component of a path to a discriminant: then it is the first component
    and the missing one. *)
Theorem C94_names_exact : forall quoted m solver w v s, protocol_from_model m solver w v = Err (EUndefinedReference s) ->
  occurs s (cerror_text quoted (EUndefinedReference s)) /\
  (written v s \/ exists u n more last rest, In u (sp_unions v) /\ more <> [] /\
    joined (sun_discriminant u) (n :: more ++ last :: rest)%list /\ Forall no_dot (n :: more ++ last :: rest)%list /\
    s = n ++ "." ++ last).
Proof.
  exact (fun q m sv w v s H => conj (ex_intro _ "undefined reference to '" (ex_intro _ "'" eq_refl)) (names_exact m sv w v s H)).
Qed.
Print Assumptions C94_names_exact.

Theorem C94_names_partial : forall m solver w v s, short_paths v ->
  protocol_from_model m solver w v = Err (EUndefinedReference s) -> written v s.
Proof. exact names_written. Qed.
Print Assumptions C94_names_partial.

(** The label of a case, the width of a field and the type of a field are those of the description. *)
Theorem C94_values : forall m solver w v,
  (forall s, protocol_from_model m solver w v = Err (EInvalidUnionCase s) ->
     exists u c, In u (sp_unions v) /\ In c (sun_cases u) /\ su_case c = s) /\
  (forall b, protocol_from_model m solver w v = Err (EUnsupportedBitSize b) ->
     exists d f, In d (sp_structs v) /\ In f (ss_fields d) /\ get_bit_size (sf_info f) = Some b) /\
  (forall t, protocol_from_model m solver w v = Err (EUnsupportedViewType t) ->
     exists d f, In d (sp_structs v) /\ In f (ss_fields d) /\ get_simple_type (sf_info f) = t).
Proof. exact labels_widths. Qed.
Print Assumptions C94_values.

(** A path of three components: the name reported is written nowhere in the description. *)
Theorem C94_names_refuted : exists v s, protocol_from_model Debug none_known world_new v = Err (EUndefinedReference s) /\
  (forall quoted, cerror_text quoted (EUndefinedReference s) = "undefined reference to 'Line.z'") /\ ~ written v s.
Proof.
  exact (ex_intro _ _ (ex_intro _ _ (conj far_missing (conj (fun _ => eq_refl) far_not_written)))).
Qed.
Print Assumptions C94_names_refuted.

(** A missing field named as it is written, and a label that is no number. *)
Example C94_nonvacuous :
  short_paths (line_v "Line.z" "1") /\ written (line_v "Line.z" "1") "Line.z" /\
  protocol_from_model Debug none_known world_new (line_v "Line.z" "1") = Err (EUndefinedReference "Line.z") /\
  protocol_from_model Debug none_known world_new (line_v "Line.kind" "one") = Err (EInvalidUnionCase "one") /\
  rerror_text "" (InvalidUnionDiscriminant 207) = "invalid union discriminant (207)" /\
  tool_error_text (fun s => s) (ToolGenerator (TVariableNotFound "field_name")) = "generator error: variable not found: field_name".
Proof.
  split.
  { intros u parts [<- | []] Hj Hd. destruct parts as [|a r]; [cbn; lia|].
    pose proof (split_dot_unique _ _ _ Hj Hd) as E. injection E as _ <-. cbn. lia. }
  split. { eapply wr_path with (rest := ""); [left; reflexivity | reflexivity | left; reflexivity]. }
  split; [exact near_missing|]. split; [exact label_wrong|]. split; reflexivity.
Qed.
