(** C100: a structure is a typed record through its views, at every depth. The
    vocabulary is in SpecPlace.v and SpecCalls.v. *)

From Coq Require Import Arith NArith ZArith String List.
From Verif Require Import Base Schema Bits Codec Compiler Access SpecStruct Samples SamplesNest Place SpecPlace Calls SpecCalls
  CallsThms SamplesPlace SamplesCalls.
Import ListNotations.
Local Open Scope N_scope.

(** After any history of setter calls, raw or through views, each getter, raw or
    through a view, gives what it would give if only the last setter call for its
    place had been made. The values need only have the type of the setter (the
    calls do not panic by themselves); fields with a scale are included.
    Missing: places that are not reachable, as in C99. *)
Theorem C100_independent_partial : forall E mr m structs name s, built m structs -> sget name structs = Some s ->
  forall h buf, (forall c, In c h -> (exists o w, reachable s (target c) o w) /\ exists b, make_call (E:=E) mr s c buf = Ok b) ->
  s_byte_size s <= len buf -> bytes_ok buf ->
  exists buf', make_calls (E:=E) mr s h buf = Ok buf' /\ length buf' = length buf /\ bytes_ok buf' /\
    forall p o w, reachable s p o w ->
      place_get (E:=E) mr s p buf' = after mr s (last_call h p) buf (place_get mr s p) /\
      (pl_item p = None ->
       follow_view_get (E:=E) mr s (pl_path p) buf' = after mr s (last_call h p) buf (follow_view_get mr s (pl_path p))).
Proof. exact @calls_independent. Qed.
Print Assumptions C100_independent_partial.

(** If all the values set through views are representable, no call fails and each
    view gives exactly the value that was set last through it. *)
Theorem C100_values_partial : forall E mr m structs name s, built m structs -> sget name structs = Some s ->
  forall h buf, (forall c, In c h -> exists o w, reachable s (target c) o w) ->
  (forall path x f, In (CView path x) h -> scalar_at s path f -> representable f x) ->
  s_byte_size s <= len buf -> bytes_ok buf ->
  exists buf', make_calls (E:=E) mr s h buf = Ok buf' /\ length buf' = length buf /\ bytes_ok buf' /\
    forall path o w, reachable s {| pl_path := path; pl_item := None |} o w ->
      match last_call h {| pl_path := path; pl_item := None |} with
      | Some (CView _ x) => follow_view_get (E:=E) mr s path buf' = Ok x
      | Some (CRaw _ v) => follow_get (E:=E) mr s path None buf' = Ok (v mod 2 ^ w)
      | None => follow_view_get (E:=E) mr s path buf' = follow_view_get mr s path buf /\
                follow_get (E:=E) mr s path None buf' = follow_get mr s path None buf
      end.
Proof. exact @values_kept. Qed.
Print Assumptions C100_values_partial.

(** A signed field of 5 bits, a flag and a colour in a structure in a structure. *)
Example C100_nonvacuous :
  built Debug pose_structs /\ sget "Pose" pose_structs = Some pose_s /\
  (forall c, In c pose_h -> exists o w, reachable pose_s (target c) o w) /\
  (forall path x f, In (CView path x) pose_h -> scalar_at pose_s path f -> representable f x) /\
  pose_h = [CView [1; 0]%nat (XInt (-3)); CRaw cell_p 65535; CView [1; 1]%nat (XBool true); CView [2]%nat (XInt (-300));
            CView [1; 2]%nat (XEnum (Some 2)); CView [1; 0]%nat (XInt (-16))] /\
  s_byte_size pose_s = 8 /\
  last_call pose_h (at_ [1; 0]%nat) = Some (CView [1; 0]%nat (XInt (-16))) /\ last_call pose_h (at_ [0]%nat) = None /\
  make_calls (E:=cerror) Debug pose_s pose_h [9; 0; 0; 0; 1; 2; 3; 4] = Ok [9; 176; 212; 254; 1; 2; 255; 255] /\
  follow_view_get (E:=cerror) Debug pose_s [1; 0]%nat [9; 176; 212; 254; 1; 2; 255; 255] = Ok (XInt (-16)) /\
  follow_view_get (E:=cerror) Debug pose_s [1; 1]%nat [9; 176; 212; 254; 1; 2; 255; 255] = Ok (XBool true) /\
  follow_view_get (E:=cerror) Debug pose_s [1; 2]%nat [9; 176; 212; 254; 1; 2; 255; 255] = Ok (XEnum (Some 2)) /\
  follow_view_get (E:=cerror) Debug pose_s [2]%nat [9; 176; 212; 254; 1; 2; 255; 255] = Ok (XInt (-300)) /\
  (forall c, In c pose_h -> exists b, make_call (E:=cerror) Debug pose_s c [9; 0; 0; 0; 1; 2; 3; 4] = Ok b).
Proof.
  split; [exact pose_built|]. split; [reflexivity|]. split; [exact pose_calls|]. split; [exact pose_values|].
  repeat (split; [vm_compute; reflexivity|]).
  intros c H. destruct H as [<-|[<-|[<-|[<-|[<-|[<-|[]]]]]]]; eexists; vm_compute; reflexivity.
Qed.

(** The representable values are exactly those that a view keeps (for fields
    without a scale, whose values are rounded: C09). *)
Theorem C100_exact : forall E mr m structs name s, built m structs -> sget name structs = Some s ->
  forall path o w f x buf, reachable s {| pl_path := path; pl_item := None |} o w -> scalar_at s path f ->
  (forall a b c d, ff_view f <> VFloat a b c d) -> s_byte_size s <= len buf -> bytes_ok buf ->
  ((exists buf', make_call (E:=E) mr s (CView path x) buf = Ok buf' /\ follow_view_get (E:=E) mr s path buf' = Ok x) <-> representable f x).
Proof. exact @values_exact. Qed.
Print Assumptions C100_exact.

(** 16 does not fit a signed field of 5 bits. *)
Example C100_exact_nonvacuous :
  built Debug pose_structs /\ sget "Pose" pose_structs = Some pose_s /\ reachable pose_s (at_ [1; 0]%nat) 8 5 /\
  (exists f, scalar_at pose_s [1; 0]%nat f /\ (forall a b c d, ff_view f <> VFloat a b c d) /\
     representable f (XInt (-16)) /\ representable f (XInt 15) /\ ~ representable f (XInt 16)) /\
  make_call (E:=cerror) Debug pose_s (CView [1; 0]%nat (XInt 16)) [9; 0; 0; 0; 1; 2; 3; 4] = Ok [9; 16; 0; 0; 1; 2; 3; 4] /\
  follow_view_get (E:=cerror) Debug pose_s [1; 0]%nat [9; 16; 0; 0; 1; 2; 3; 4] = Ok (XInt (-16)).
Proof.
  split; [exact pose_built|]. split; [reflexivity|]. split; [exact bend_reach|]. split; [|vm_compute; auto].
  eexists. split; [eapply sc_in; [reflexivity|]; apply sc_here; reflexivity|]. split; [intros a b c d; discriminate|].
  split; [vm_compute; split; [discriminate|reflexivity]|]. split; [vm_compute; split; [discriminate|reflexivity]|].
  vm_compute. intros (_ & H). discriminate H.
Qed.

(** Not for structures that start inside of a byte: setting one field through its
    view changes what the view of another gives. *)
Theorem C100_shared_refuted : exists s path path' f x buf buf',
  sget "Odd" odd_structs = Some s /\ built Debug odd_structs /\ at_place s path None 4 4 /\ at_place s path' None 0 4 /\
  scalar_at s path f /\ representable f x /\ len buf = s_byte_size s /\ bytes_ok buf /\
  follow_view_get (E:=cerror) Debug s path' buf = Ok (XInt 0) /\ make_call (E:=cerror) Debug s (CView path x) buf = Ok buf' /\
  follow_view_get (E:=cerror) Debug s path' buf' = Ok (XInt 5).
Proof. exact views_shared. Qed.
Print Assumptions C100_shared_refuted.
