(** Specification of loading (C48): calls on a loader, and what compiling them in
    order means. *)

From Coq Require Import Arith NArith String List Bool.
From Verif Require Import Base Schema Compiler Loader.
Import ListNotations.
Local Open Scope string_scope.

Inductive call := LLoad (v : sprotocol) | LImport (import_path : string) (v : sprotocol).
Definition loader_after (l : list call) : loader :=
  fold_left (fun x c => match c with LLoad v => loader_load x v | LImport p v => loader_import x p v end) l loader_new.
(** The loaded and the imported models, in the order of the calls. *)
Definition loaded (l : list call) : list sprotocol :=
  flat_map (fun c => match c with LLoad v => [v] | LImport _ _ => [] end) l.
Definition imported (l : list call) : list (string * sprotocol) :=
  flat_map (fun c => match c with LLoad _ => [] | LImport p v => [(p, v)] end) l.

(** What a protocol sees of the ones imported before it, with their import paths:
    under a name, the last one that has it; a type of that protocol has the
    import path, the separator and its name as path. *)
Definition visible (sep : string) (seen : list (string * protocol)) : resolver :=
  let named n := find (fun bp => String.eqb n (p_name (snd bp))) (rev seen) in
  {| r_protocol := fun n => option_map snd (named n);
     r_path := fun n t => option_map (fun bp => fst bp ++ sep ++ t) (named n) |}.

(** [imports_run m sep seen w l seen' w']: the models [l] compile one after the
    other, each seeing [seen] and the ones compiled before it. *)
Inductive imports_run (m : mode) (sep : string) :
  list (string * protocol) -> world -> list (string * sprotocol) -> list (string * protocol) -> world -> Prop :=
| ir_nil : forall seen w, imports_run m sep seen w [] seen w
| ir_cons : forall seen w path v l p w1 seen' w',
    protocol_from_model m (visible sep seen) w v = Ok (p, w1) ->
    imports_run m sep (seen ++ [(path, p)])%list w1 l seen' w' ->
    imports_run m sep seen w ((path, v) :: l) seen' w'.
(** Loaded models see the imported ones, but not each other. *)
Inductive loads_run (m : mode) (R : resolver) : world -> list sprotocol -> list protocol -> world -> Prop :=
| lr_nil : forall w, loads_run m R w [] [] w
| lr_cons : forall w v l p w1 ps w',
    protocol_from_model m R w v = Ok (p, w1) -> loads_run m R w1 l ps w' ->
    loads_run m R w (v :: l) (p :: ps) w'.

(** [e] is how compiling a model went wrong. *)
Definition failed {A} (x : cres A) (e : option cerror) : Prop :=
  match e with Some e => x = Err e | None => x = Panic end.
