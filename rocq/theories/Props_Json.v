(** Property C59: what a protocol description means. *)

From Coq Require Import Arith NArith ZArith String List Bool Permutation Floats.SpecFloat.
From Verif Require Import Base Schema Json SpecJson JsonThms JsonMore.
Import ListNotations.
Local Open Scope string_scope.

(** A description that is accepted yields a protocol it describes. *)
Theorem C59_means : forall num hash_order j v,
  (forall l, Permutation (hash_order l) l) ->
  de_protocol num hash_order j = Some v -> is_protocol num j v.
Proof. exact protocol_means. Qed.
Print Assumptions C59_means.

(** Everything that describes a protocol is accepted. *)
Theorem C59_accepts : forall num hash_order j v,
  (forall l, Permutation (hash_order l) l) ->
  is_protocol num j v -> exists v', de_protocol num hash_order j = Some v' /\ same_protocol v v'.
Proof. exact protocol_accepts. Qed.
Print Assumptions C59_accepts.

(** A description describes one protocol, up to the order of enumeration variants. *)
Theorem C59_determined : forall num j v v',
  is_protocol num j v -> is_protocol num j v' -> same_protocol v v'.
Proof. exact protocol_same. Qed.
Print Assumptions C59_determined.

(** Every protocol whose numbers can be written down has a description. *)
Theorem C59_expressible : forall num v, deliverable num v -> exists j, is_protocol num j v.
Proof. exact protocol_expressible. Qed.
Print Assumptions C59_expressible.

(** Descriptions without a name, or with two of them, are rejected. *)
Theorem C59_name_once : forall num hash_order l,
  (forall x, ~ once l "name" x) -> de_protocol num hash_order (JObject l) = None.
Proof. exact name_once. Qed.
Print Assumptions C59_name_once.

(** Keys the model does not know are ignored. *)
Theorem C59_unknown_keys : forall num hash_order l1 k x l2,
  ~ In k ["name"; "endianness"; "imports"; "structs"; "messages"; "enums"; "unions"] ->
  de_protocol num hash_order (JObject (l1 ++ (k, x) :: l2)) = de_protocol num hash_order (JObject (l1 ++ l2)).
Proof. exact unknown_ignored. Qed.
Print Assumptions C59_unknown_keys.

Definition num_int (j : json) : option N :=
  match j with JInt z => if Z.leb 0 z then Some (Z.to_N z) else None | _ => None end.

Definition sample : json :=
  JObject [("name", JString "P"); ("comment", JBool true);
    ("structs", JArray [
      JObject [("fields", JArray [
                 JObject [("name", JString "a"); ("info", JObject [("bits", JInt 5); ("type", JString "unsigned")]);
                          ("view", JObject [("type", JString "float-range"); ("min", JInt 0); ("max", JFloat (S754_infinity false))])];
                 JObject [("name", JString "b"); ("info", JArray [JString "signed"; JInt 3]); ("array_len", JInt 4)]]);
               ("name", JString "S")]]);
    ("messages", JNull);
    ("enums", JArray [JObject [("name", JString "E"); ("variants", JObject [("X", JInt 1); ("Y", JInt 2); ("X", JInt 3)])]])].

Example C59_sample :
  de_protocol num_int (fun l => l) sample =
  Some {| sp_name := "P"; sp_endianness := None; sp_imports := [];
          sp_structs := [{| ss_name := "S"; ss_fields := [
            {| sf_name := "a"; sf_info := STUnsigned 5;
               sf_view := Some (SVFloatRange (S754_zero false) (S754_infinity false)); sf_array_len := None |};
            {| sf_name := "b"; sf_info := STSigned 3; sf_view := None; sf_array_len := Some 4%N |}] |}];
          sp_messages := []; sp_enums := [{| se_name := "E"; se_variants := [("Y", 2%N); ("X", 3%N)] |}];
          sp_unions := [] |}.
Proof. vm_compute. reflexivity. Qed.

Example C59_means_nonvacuous : exists v, is_protocol num_int sample v.
Proof.
  eexists. eapply C59_means with (hash_order := fun l => l); [intro; apply Permutation_refl|exact C59_sample].
Qed.

Example C59_expressible_nonvacuous :
  deliverable num_int
    {| sp_name := "P"; sp_endianness := Some Big; sp_imports := [];
       sp_structs := [{| ss_name := "S"; ss_fields := [
         {| sf_name := "a"; sf_info := STUnsigned 5; sf_view := None; sf_array_len := Some 4%N |}] |}];
       sp_messages := []; sp_enums := [{| se_name := "E"; se_variants := [("X", 1%N)] |}]; sp_unions := [] |}.
Proof.
  split; [|split]; cbn.
  - intros s f [<- | []] [<- | []]. split; cbn; [reflexivity|intros n H; inversion H; reflexivity].
  - intros ? ? [].
  - intros e [<- | []]. cbn. split; [constructor; [intros []|constructor]|].
    intros k n [H | []]. inversion H. reflexivity.
Qed.

(** No name, two names, a missing member, a wrong type of value, an unknown variant. *)
Example C59_rejected :
  map (de_protocol num_int (fun l => l))
    [JObject []; JObject [("name", JString "P"); ("name", JString "P")];
     JObject [("name", JString "P"); ("structs", JArray [JObject [("name", JString "S")]])];
     JObject [("name", JInt 1)];
     JObject [("name", JString "P"); ("structs", JArray [JObject [("name", JString "S"); ("fields", JArray
       [JObject [("name", JString "a"); ("info", JObject [("type", JString "complex"); ("bits", JInt 3)])]])]])]]
  = [None; None; None; None; None].
Proof. vm_compute. reflexivity. Qed.
