(** Specification of a build script run (C56): which kinds of files are wanted, the
    names that give separate files, and a file system that works below a directory. *)

From Coq Require Import Arith NArith Ascii String List Bool.
From Verif Require Import Base Schema Compiler Template SpecTemplate Driver SpecDriver GenText SpecCode BuildScript.
Import ListNotations.
Local Open Scope string_scope.

(** The kind of files a setting is about, and its value. *)
Definition about (x : setting) : file_type * bool :=
  match x with
  | ReadsMessages b => (MessageReading, b)
  | WritesMessages b => (MessageWriting, b)
  | UseEnums b => (EnumFile, b)
  | UseStructs b => (StructureFile, b)
  | UseMessages b => (Message, b)
  | UseUnions b => (UnionFile, b)
  end.
(** Without a setting: everything but the code that reads and writes messages. *)
Definition by_default (t : file_type) : bool :=
  match t with MessageReading | MessageWriting => false | _ => true end.
Definition same_kind (a b : file_type) : bool :=
  match a, b with
  | MessageWriting, MessageWriting | MessageReading, MessageReading | Message, Message
  | StructureFile, StructureFile | EnumFile, EnumFile | UnionFile, UnionFile => true
  | _, _ => false
  end.
(** The last setting of a kind counts. *)
Definition wanted (l : list setting) (t : file_type) : bool :=
  last (map snd (filter (fun x => same_kind t (fst x)) (map about l))) (by_default t).

(** Upper case of the letters a to z. *)
Definition shout (s : string) : string :=
  string_of_list_ascii
    (map (fun c => if (97 <=? N_of_ascii c)%N && (N_of_ascii c <=? 122)%N then ascii_of_N (N_of_ascii c - 32) else c)
         (list_ascii_of_string s)).

(** The name of a folder. *)
Definition plain (n : string) : Prop :=
  n <> "" /\ n <> "." /\ n <> ".." /\ ~ In slash (list_ascii_of_string n).

(** The files of a protocol that are written: the wanted ones that are not empty (one
    byte counts as empty). *)
Definition kept_files (fm : formats) (embedded : N -> bool) (l : list setting) (p : protocol)
  : list (file_type * string * string) :=
  filter (fun f => wanted l (fst (fst f)) && Nat.ltb 1 (String.length (snd f))) (expected_files fm embedded p).
(** The file that includes them. *)
Definition umbrella_text_of (show : string -> string) (name dir : string) (files : list (file_type * string * string)) : string :=
  "pub mod " ++ name ++ " {" ++ lf ++
  String.concat "" (map (fun f => "include!(" ++ show (join dir (snd (fst f))) ++ ");" ++ lf) files) ++ "}" ++ lf.

(** Below the directory [out], folders can be created where there is nothing and files
    written into them where there is no directory. *)
Record works_below {S} (fs : fs_ops S) (look : S -> string -> option entry) (out : string) : Prop := {
  wb_create : forall s n, plain n -> look s (join out n) = None -> fs_create_dir fs s (join out n) <> None;
  wb_write : forall s n f d, plain n -> plain f -> look s (join out n) = Some EDir ->
    look s (join (join out n) f) <> Some EDir -> fs_write fs s (join (join out n) f) d <> None }.
(** Nothing is in the way of a protocol: its folder is absent or a directory, and there
    is no directory in it in the place of a file. *)
Definition clear (look : string -> option entry) (out n : string) : Prop :=
  (look (join out n) = None \/ look (join out n) = Some EDir) /\
  forall f, plain f -> look (join (join out n) f) <> Some EDir.

(** What a run does for a protocol, in order: the folder, the kept files, the file that
    includes them. *)
Definition build_plan (fm : formats) (show : string -> string) (embedded : N -> bool) (l : list setting) (out : string) (p : protocol)
  : list step :=
  let dir := join out (p_name p) in
  let kept := kept_files fm embedded l p in
  (SOp (FEnsure dir) :: map (fun f => SOp (FWrite (join dir (snd (fst f))) (snd f))) kept
   ++ [SOp (FWrite (join dir "umbrella.rs") (umbrella_text_of show (p_name p) dir kept))])%list.
