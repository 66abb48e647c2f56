(** Model of the deserialisation of protocol descriptions (compiler/src/model/*.rs:
    the types and their serde attributes; compiler/src/interface.rs:52-53, 59-60).

    The input is a JSON value; parsing JSON5 text into one is not modelled. What the
    attributes mean is serde's: [derive(Deserialize)] reads a structure from an object,
    with unknown keys ignored, a repeated key rejected and a missing key allowed only
    for an [Option], or from an array of its members in order; [tag = "type"] selects
    the variant by the member [type] (of an array: the first element) and reads the
    rest; [null] is [None]. All errors are one value of [json5::Error]: the model
    returns [None].

    Simplifications: how the json5 crate turns a number into the [usize] of
    [array_len] or of a variant is a parameter ([num]), as is the order in which a
    [HashMap] is iterated ([hash_order]); an object in place of the string of
    [endianness] is rejected. *)

From Coq Require Import Arith NArith ZArith Ascii String List Bool Floats.SpecFloat.
From Verif Require Import Base Schema Compiler.
Import ListNotations.
Local Open Scope string_scope.

(** JSON values; the entries of an object are in the order of the text. *)
Inductive json :=
| JNull
| JBool (b : bool)
| JInt (z : Z)
| JFloat (x : f64)
| JString (s : string)
| JArray (l : list json)
| JObject (l : list (string * json)).

(** ** serde *)

Fixpoint map_all {A B} (f : A -> option B) (l : list A) : option (list B) :=
  match l with
  | [] => Some []
  | x :: r => match f x, map_all f r with Some y, Some ys => Some (y :: ys) | _, _ => None end
  end.

(** The values of key [k]. *)
Definition values (k : string) (l : list (string * json)) : list json :=
  map snd (filter (fun kv => String.eqb (fst kv) k) l).
Definition member_of (l : list (string * json)) (k : string) : option (option json) :=
  match values k l with
  | [] => Some None
  | [v] => Some (Some v)
  | _ => None
  end.
(** Members of a structure with the keys [keys]; [exact] when an array must not have
    further elements, which is checked for buffered content only. *)
Definition record (exact : bool) (keys : list string) (j : json) : option (list (option json)) :=
  match j with
  | JObject l => map_all (member_of l) keys
  | JArray l =>
      if (if exact then Nat.eqb (length l) (length keys) else Nat.leb (length keys) (length l))
      then Some (map Some (firstn (length keys) l)) else None
  | _ => None
  end.
Definition required {A} (de : json -> option A) (o : option json) : option A :=
  match o with Some j => de j | None => None end.
Definition optional {A} (de : json -> option A) (o : option json) : option (option A) :=
  match o with
  | None | Some JNull => Some None
  | Some j => option_map Some (de j)
  end.

Definition de_string (j : json) : option string := match j with JString s => Some s | _ => None end.
Definition de_bool (j : json) : option bool := match j with JBool b => Some b | _ => None end.
Definition de_vec {A} (de : json -> option A) (j : json) : option (list A) :=
  match j with JArray l => map_all de l | _ => None end.

(** Numbers inside tagged content are buffered as [i64] or [f64]. *)
Definition in_i64 (z : Z) : bool := (Z.leb (- 2 ^ 63) z && Z.ltb z (2 ^ 63))%bool.
Definition content_usize (j : json) : option N :=
  match j with JInt z => if (in_i64 z && Z.leb 0 z)%bool then Some (Z.to_N z) else None | _ => None end.
Definition f64_of_Z (z : Z) : f64 :=
  match z with
  | Z0 => S754_zero false
  | Zpos p => binary_normalize 53 1024 (Zpos p) 0 false
  | Zneg p => binary_normalize 53 1024 (Zneg p) 0 true
  end.
Definition content_f64 (j : json) : option f64 :=
  match j with
  | JInt z => if in_i64 z then Some (f64_of_Z z) else None
  | JFloat x => Some x
  | _ => None
  end.

(** [serde(tag = "type")] *)
Definition tagged (j : json) : option (string * json) :=
  match j with
  | JObject l =>
      match values "type" l with
      | [JString t] => Some (t, JObject (filter (fun kv => negb (String.eqb (fst kv) "type")) l))
      | _ => None
      end
  | JArray (JString t :: r) => Some (t, JArray r)
  | _ => None
  end.

Section Model.
Variable num : json -> option N.
Variable hash_order : list (string * N) -> list (string * N).

(** ** model/structure.rs *)

(** structure.rs:31-44 *)
Definition de_view (j : json) : option sview :=
  match tagged j with
  | None => None
  | Some (t, c) =>
      if String.eqb t "enum" then
        match record true ["name"] c with
        | Some [name] => option_map SVEnum (required de_string name)
        | _ => None
        end
      else if String.eqb t "float-range" then
        match record true ["min"; "max"] c with
        | Some [min; max] =>
            match required content_f64 min, required content_f64 max with
            | Some a, Some b => Some (SVFloatRange a b)
            | _, _ => None
            end
        | _ => None
        end
      else if String.eqb t "float-multiplier" then
        match record true ["multiplier"] c with
        | Some [x] => option_map SVFloatMultiplier (required content_f64 x)
        | _ => None
        end
      else None
  end.

(** structure.rs:46-65 *)
Definition de_info (j : json) : option sftype :=
  match tagged j with
  | None => None
  | Some (t, c) =>
      let bits make :=
        match record true ["bits"] c with
        | Some [x] => option_map make (required content_usize x)
        | _ => None
        end in
      if String.eqb t "signed" then bits STSigned
      else if String.eqb t "unsigned" then bits STUnsigned
      else if String.eqb t "float" then bits STFloat
      else if String.eqb t "boolean" then bits STBoolean
      else if String.eqb t "struct" then
        match record true ["item_type"] c with
        | Some [x] => option_map STStruct (required de_string x)
        | _ => None
        end
      else None
  end.

(** structure.rs:98-104 *)
Definition de_field (j : json) : option sfield :=
  match record false ["name"; "info"; "view"; "array_len"] j with
  | Some [name; info; view; array_len] =>
      match required de_string name, required de_info info, optional de_view view, optional num array_len with
      | Some n, Some i, Some v, Some a => Some {| sf_name := n; sf_info := i; sf_view := v; sf_array_len := a |}
      | _, _, _, _ => None
      end
  | _ => None
  end.

(** structure.rs:106-110 *)
Definition de_struct (j : json) : option sstruct :=
  match record false ["name"; "fields"] j with
  | Some [name; fields] =>
      match required de_string name, required (de_vec de_field) fields with
      | Some n, Some f => Some {| ss_name := n; ss_fields := f |}
      | _, _ => None
      end
  | _ => None
  end.

(** ** model/message.rs *)

(** message.rs:31-49 *)
Definition de_minfo (j : json) : option mftype :=
  match tagged j with
  | None => None
  | Some (t, c) =>
      if String.eqb t "item" then
        match record true ["item_type"] c with
        | Some [x] => option_map MTItem (required de_string x)
        | _ => None
        end
      else if String.eqb t "list" then
        match record true ["max_len"; "item_type"] c with
        | Some [n; x] =>
            match required content_usize n, required de_string x with
            | Some n, Some x => Some (MTList n x)
            | _, _ => None
            end
        | _ => None
        end
      else if String.eqb t "string" then
        match record true ["max_len"] c with
        | Some [n] => option_map MTString (optional content_usize n)
        | _ => None
        end
      else if String.eqb t "payload" then
        match record true [] c with Some _ => Some MTPayload | None => None end
      else if String.eqb t "union" then
        match record true ["on"; "item_type"] c with
        | Some [o; x] =>
            match required de_string o, required de_string x with
            | Some o, Some x => Some (MTUnion o x)
            | _, _ => None
            end
        | _ => None
        end
      else None
  end.

(** message.rs:51-56 *)
Definition de_mfield (j : json) : option smfield :=
  match record false ["name"; "info"; "optional"] j with
  | Some [name; info; opt] =>
      match required de_string name, required de_minfo info, optional de_bool opt with
      | Some n, Some i, Some o => Some {| smf_name := n; smf_info := i; smf_optional := o |}
      | _, _, _ => None
      end
  | _ => None
  end.

(** message.rs:58-62 *)
Definition de_message (j : json) : option smessage :=
  match record false ["name"; "fields"] j with
  | Some [name; fields] =>
      match required de_string name, required (de_vec de_mfield) fields with
      | Some n, Some f => Some {| sm_name := n; sm_fields := f |}
      | _, _ => None
      end
  | _ => None
  end.

(** ** model/union.rs *)

(** union.rs:31-36 *)
Definition de_case (j : json) : option sucase :=
  match record false ["name"; "case"; "item_type"] j with
  | Some [name; label; item] =>
      match required de_string name, required de_string label, optional de_string item with
      | Some n, Some c, Some i => Some {| su_name := n; su_case := c; su_item_type := i |}
      | _, _, _ => None
      end
  | _ => None
  end.

(** union.rs:38-43 *)
Definition de_union (j : json) : option sunion :=
  match record false ["name"; "discriminant"; "cases"] j with
  | Some [name; disc; cases] =>
      match required de_string name, required de_string disc, required (de_vec de_case) cases with
      | Some n, Some d, Some c => Some {| sun_name := n; sun_discriminant := d; sun_cases := c |}
      | _, _, _ => None
      end
  | _ => None
  end.

(** ** model/protocol.rs *)

(** protocol.rs:35-40 *)
Definition de_endianness (j : json) : option endianness :=
  match j with
  | JString s =>
      if String.eqb s "little" then Some Little else if String.eqb s "big" then Some Big else None
  | _ => None
  end.

(** protocol.rs:42-47 *)
Definition de_import (j : json) : option simport :=
  match record false ["protocol"; "type"] j with
  | Some [p; t] =>
      match required de_string p, required de_string t with
      | Some p, Some t => Some {| si_protocol := p; si_type := t |}
      | _, _ => None
      end
  | _ => None
  end.

(** [HashMap<String, usize>]: of a repeated key the last value stays. *)
Definition de_variants (j : json) : option (list (string * N)) :=
  match j with
  | JObject l =>
      match map_all (fun kv => option_map (fun n => (fst kv, n)) (num (snd kv))) l with
      | Some kvs =>
          Some (hash_order (fold_left (fun m kv => filter (fun x => negb (String.eqb (fst x) (fst kv))) m ++ [kv])%list kvs []))
      | None => None
      end
  | _ => None
  end.

(** protocol.rs:49-53 *)
Definition de_enum (j : json) : option senum :=
  match record false ["name"; "variants"] j with
  | Some [name; variants] =>
      match required de_string name, required de_variants variants with
      | Some n, Some v => Some {| se_name := n; se_variants := v |}
      | _, _ => None
      end
  | _ => None
  end.

Definition or_empty {A} (o : option (list A)) : list A := match o with Some l => l | None => [] end.

(** protocol.rs:55-64; an absent list is an empty list in [sprotocol]. *)
Definition de_protocol (j : json) : option sprotocol :=
  match record false ["name"; "endianness"; "imports"; "structs"; "messages"; "enums"; "unions"] j with
  | Some [name; endi; imports; structs; messages; enums; unions] =>
      match required de_string name, optional de_endianness endi, optional (de_vec de_import) imports,
            optional (de_vec de_struct) structs, optional (de_vec de_message) messages,
            optional (de_vec de_enum) enums, optional (de_vec de_union) unions with
      | Some n, Some e, Some i, Some s, Some m, Some en, Some u =>
          Some {| sp_name := n; sp_endianness := e; sp_imports := or_empty i; sp_structs := or_empty s;
                  sp_messages := or_empty m; sp_enums := or_empty en; sp_unions := or_empty u |}
      | _, _, _, _, _, _, _ => None
      end
  | _ => None
  end.

End Model.
