(** The descriptions of the test program (testprog/src/*.json5), as JSON values. *)

From Coq Require Import ZArith String List Floats.SpecFloat.
From Verif Require Import Base Schema Json.
Import ListNotations.
Local Open Scope string_scope.
Local Open Scope Z_scope.

(** testprog/src/arrays.json5:1-60 *)
Definition arrays_json5 : json :=
  JObject [
    ("name", JString "arrays");
    ("structs", JArray [
      JObject [
        ("name", JString "Item");
        ("fields", JArray [
          JObject [
            ("name", JString "id");
            ("info", JObject [("type", JString "unsigned"); ("bits", JInt 8)])];
          JObject [
            ("name", JString "count");
            ("info", JObject [("type", JString "unsigned"); ("bits", JInt 11)])];
          JObject [
            ("name", JString "slot");
            ("info", JObject [("type", JString "unsigned"); ("bits", JInt 5)])]])]]);
    ("messages", JArray [
      JObject [
        ("name", JString "Msg");
        ("fields", JArray [
          JObject [
            ("name", JString "items");
            ("info", JObject [("type", JString "list"); ("max_len", JInt 255); ("item_type", JString "Item")])]])];
      JObject [
        ("name", JString "Msg1");
        ("fields", JArray [
          JObject [
            ("name", JString "items");
            ("info", JObject [("type", JString "list"); ("max_len", JInt 255); ("item_type", JString "Item")]);
            ("optional", JBool true)]])]])].

(** testprog/src/bits.json5:1-38 *)
Definition bits_json5 : json :=
  JObject [
    ("name", JString "bits");
    ("structs", JArray [
      JObject [
        ("name", JString "Numbers");
        ("fields", JArray [
          JObject [("name", JString "a"); ("info", JObject [("type", JString "signed"); ("bits", JInt 4)])];
          JObject [("name", JString "b"); ("info", JObject [("type", JString "unsigned"); ("bits", JInt 4)])];
          JObject [("name", JString "c"); ("info", JObject [("type", JString "signed"); ("bits", JInt 17)])];
          JObject [("name", JString "d"); ("info", JObject [("type", JString "unsigned"); ("bits", JInt 7)])]])]])].

(** testprog/src/bits2.json5:1-39 *)
Definition bits2_json5 : json :=
  JObject [
    ("name", JString "bits2");
    ("endianness", JString "big");
    ("structs", JArray [
      JObject [
        ("name", JString "Numbers");
        ("fields", JArray [
          JObject [("name", JString "a"); ("info", JObject [("type", JString "signed"); ("bits", JInt 4)])];
          JObject [("name", JString "b"); ("info", JObject [("type", JString "unsigned"); ("bits", JInt 4)])];
          JObject [("name", JString "c"); ("info", JObject [("type", JString "signed"); ("bits", JInt 17)])];
          JObject [("name", JString "d"); ("info", JObject [("type", JString "unsigned"); ("bits", JInt 7)])]])]])].

(** testprog/src/enums.json5:1-40 *)
Definition enums_json5 : json :=
  JObject [
    ("name", JString "enums");
    ("structs", JArray [
      JObject [
        ("name", JString "Header");
        ("fields", JArray [
          JObject [
            ("name", JString "type");
            ("info", JObject [("type", JString "unsigned"); ("bits", JInt 8)]);
            ("view", JObject [("type", JString "enum"); ("name", JString "Type")])]])]]);
    ("enums", JArray [
      JObject [
        ("name", JString "Type");
        ("variants", JObject [
          ("Null", JInt 0);
          ("String", JInt 1);
          ("Int8", JInt 2);
          ("Int16", JInt 3);
          ("Int32", JInt 4);
          ("Int64", JInt 5);
          ("UInt8", JInt 6);
          ("UInt16", JInt 7);
          ("UInt32", JInt 8);
          ("UInt64", JInt 9);
          ("Float", JInt 10);
          ("Double", JInt 11)])]])].

(** testprog/src/lists.json5:1-62 *)
Definition lists_json5 : json :=
  JObject [
    ("name", JString "lists");
    ("imports", JArray [JObject [("protocol", JString "unions"); ("type", JString "Item")]]);
    ("structs", JArray [
      JObject [
        ("name", JString "Times");
        ("fields", JArray [
          JObject [
            ("name", JString "start");
            ("info", JObject [("type", JString "unsigned"); ("bits", JInt 64)])];
          JObject [
            ("name", JString "end");
            ("info", JObject [("type", JString "unsigned"); ("bits", JInt 64)])]])]]);
    ("messages", JArray [
      JObject [
        ("name", JString "SpanRun");
        ("fields", JArray [
          JObject [
            ("name", JString "times");
            ("info", JObject [("type", JString "item"); ("item_type", JString "Times")])];
          JObject [
            ("name", JString "vars");
            ("info", JObject [("type", JString "list"); ("max_len", JInt 255); ("item_type", JString "Item")])]])];
      JObject [
        ("name", JString "Dataset");
        ("fields", JArray [
          JObject [
            ("name", JString "runs");
            ("info", JObject [("type", JString "list"); ("max_len", JInt 999999); ("item_type", JString "SpanRun")])]])]])].

(** testprog/src/struct_arrays.json5:1-42 *)
Definition struct_arrays_json5 : json :=
  JObject [
    ("name", JString "struct_arrays");
    ("structs", JArray [
      JObject [
        ("name", JString "Basic");
        ("fields", JArray [
          JObject [
            ("name", JString "p1");
            ("info", JObject [("type", JString "unsigned"); ("bits", JInt 32)])];
          JObject [
            ("name", JString "p2");
            ("info", JObject [("type", JString "unsigned"); ("bits", JInt 8)]);
            ("array_len", JInt 32)];
          JObject [
            ("name", JString "p3");
            ("info", JObject [("type", JString "float"); ("bits", JInt 32)]);
            ("array_len", JInt 4)];
          JObject [
            ("name", JString "p4");
            ("info", JObject [("type", JString "unsigned"); ("bits", JInt 24)]);
            ("array_len", JInt 2)]])]])].

(** testprog/src/structs.json5:1-130 *)
Definition structs_json5 : json :=
  JObject [
    ("name", JString "structs");
    ("structs", JArray [
      JObject [
        ("name", JString "Numbers");
        ("fields", JArray [
          JObject [
            ("name", JString "u_a");
            ("info", JObject [("type", JString "unsigned"); ("bits", JInt 32)])];
          JObject [("name", JString "a"); ("info", JObject [("type", JString "signed"); ("bits", JInt 32)])];
          JObject [
            ("name", JString "u_b");
            ("info", JObject [("type", JString "unsigned"); ("bits", JInt 16)])];
          JObject [("name", JString "b"); ("info", JObject [("type", JString "signed"); ("bits", JInt 16)])];
          JObject [
            ("name", JString "u_c");
            ("info", JObject [("type", JString "unsigned"); ("bits", JInt 8)])];
          JObject [("name", JString "c"); ("info", JObject [("type", JString "signed"); ("bits", JInt 8)])]])];
      JObject [
        ("name", JString "Flags");
        ("fields", JArray [
          JObject [("name", JString "a"); ("info", JObject [("type", JString "boolean"); ("bits", JInt 8)])];
          JObject [("name", JString "b"); ("info", JObject [("type", JString "boolean"); ("bits", JInt 16)])];
          JObject [("name", JString "c"); ("info", JObject [("type", JString "boolean"); ("bits", JInt 32)])];
          JObject [("name", JString "d"); ("info", JObject [("type", JString "boolean"); ("bits", JInt 64)])]])];
      JObject [
        ("name", JString "Floats");
        ("fields", JArray [
          JObject [("name", JString "a"); ("info", JObject [("type", JString "float"); ("bits", JInt 32)])];
          JObject [("name", JString "b"); ("info", JObject [("type", JString "float"); ("bits", JInt 64)])]])];
      JObject [
        ("name", JString "Master");
        ("fields", JArray [
          JObject [
            ("name", JString "floats");
            ("info", JObject [("type", JString "struct"); ("item_type", JString "Floats")])];
          JObject [
            ("name", JString "nums");
            ("info", JObject [("type", JString "struct"); ("item_type", JString "Numbers")])];
          JObject [
            ("name", JString "flags");
            ("info", JObject [("type", JString "struct"); ("item_type", JString "Flags")])]])]])].

(** testprog/src/test.json5:1-63 *)
Definition test_json5 : json :=
  JObject [
    ("name", JString "test");
    ("structs", JArray [
      JObject [
        ("name", JString "IntContainer");
        ("fields", JArray [
          JObject [
            ("name", JString "test_int");
            ("info", JObject [("type", JString "unsigned"); ("bits", JInt 32)])]])]]);
    ("messages", JArray [
      JObject [
        ("name", JString "Test1");
        ("fields", JArray [
          JObject [("name", JString "s1"); ("info", JObject [("type", JString "string")])];
          JObject [
            ("name", JString "p1");
            ("info", JObject [("type", JString "item"); ("item_type", JString "IntContainer")])]])];
      JObject [
        ("name", JString "Test");
        ("fields", JArray [
          JObject [("name", JString "s1"); ("info", JObject [("type", JString "string")])];
          JObject [
            ("name", JString "s2");
            ("info", JObject [("type", JString "string"); ("max_len", JInt 32)])];
          JObject [
            ("name", JString "p1");
            ("info", JObject [("type", JString "item"); ("item_type", JString "Test1")]);
            ("optional", JBool true)]])]])].

(** testprog/src/unions.json5:1-66 *)
Definition unions_json5 : json :=
  JObject [
    ("name", JString "unions");
    ("imports", JArray [
      JObject [("protocol", JString "enums"); ("type", JString "Header")];
      JObject [("protocol", JString "enums"); ("type", JString "Type")];
      JObject [("protocol", JString "values"); ("type", JString "ValueInt8")];
      JObject [("protocol", JString "values"); ("type", JString "ValueInt16")];
      JObject [("protocol", JString "values"); ("type", JString "ValueInt32")];
      JObject [("protocol", JString "values"); ("type", JString "ValueInt64")];
      JObject [("protocol", JString "values"); ("type", JString "ValueUInt8")];
      JObject [("protocol", JString "values"); ("type", JString "ValueUInt16")];
      JObject [("protocol", JString "values"); ("type", JString "ValueUInt32")];
      JObject [("protocol", JString "values"); ("type", JString "ValueUInt64")];
      JObject [("protocol", JString "values"); ("type", JString "ValueFloat")];
      JObject [("protocol", JString "values"); ("type", JString "ValueDouble")];
      JObject [("protocol", JString "values"); ("type", JString "ValueString")]]);
    ("unions", JArray [
      JObject [
        ("name", JString "Value");
        ("discriminant", JString "Header.type");
        ("cases", JArray [
          JObject [("name", JString "Null"); ("case", JString "Null")];
          JObject [
            ("name", JString "String");
            ("case", JString "String");
            ("item_type", JString "ValueString")];
          JObject [("name", JString "Int8"); ("case", JString "Int8"); ("item_type", JString "ValueInt8")];
          JObject [("name", JString "Int16"); ("case", JString "Int16"); ("item_type", JString "ValueInt16")];
          JObject [("name", JString "Int32"); ("case", JString "Int32"); ("item_type", JString "ValueInt32")];
          JObject [("name", JString "Int64"); ("case", JString "Int64"); ("item_type", JString "ValueInt64")];
          JObject [("name", JString "UInt8"); ("case", JString "UInt8"); ("item_type", JString "ValueUInt8")];
          JObject [
            ("name", JString "UInt16");
            ("case", JString "UInt16");
            ("item_type", JString "ValueUInt16")];
          JObject [
            ("name", JString "UInt32");
            ("case", JString "UInt32");
            ("item_type", JString "ValueUInt32")];
          JObject [
            ("name", JString "UInt64");
            ("case", JString "UInt64");
            ("item_type", JString "ValueUInt64")];
          JObject [("name", JString "Float"); ("case", JString "Float"); ("item_type", JString "ValueFloat")];
          JObject [
            ("name", JString "Double");
            ("case", JString "Double");
            ("item_type", JString "ValueDouble")]])]]);
    ("messages", JArray [
      JObject [
        ("name", JString "Item");
        ("fields", JArray [
          JObject [
            ("name", JString "header");
            ("info", JObject [("type", JString "item"); ("item_type", JString "Header")])];
          JObject [("name", JString "name"); ("info", JObject [("type", JString "string")])];
          JObject [
            ("name", JString "value");
            ("info", JObject [("type", JString "union"); ("on", JString "header"); ("item_type", JString "Value")])]])]])].

(** testprog/src/unions2.json5:1-59 *)
Definition unions2_json5 : json :=
  JObject [
    ("name", JString "unions2");
    ("enums", JArray [JObject [("name", JString "Test"); ("variants", JObject [("V1", JInt 0); ("V2", JInt 1)])]]);
    ("unions", JArray [
      JObject [
        ("name", JString "NestedDiscriminant");
        ("discriminant", JString "Header2.inner.test");
        ("cases", JArray [
          JObject [("case", JString "V1"); ("name", JString "V1")];
          JObject [("case", JString "V2"); ("name", JString "V2")]])]]);
    ("structs", JArray [
      JObject [
        ("name", JString "Header");
        ("fields", JArray [
          JObject [
            ("name", JString "test");
            ("info", JObject [("type", JString "unsigned"); ("bits", JInt 1)]);
            ("view", JObject [("type", JString "enum"); ("name", JString "Test")])];
          JObject [
            ("name", JString "test2");
            ("info", JObject [("type", JString "signed"); ("bits", JInt 7)])]])];
      JObject [
        ("name", JString "Header2");
        ("fields", JArray [
          JObject [
            ("name", JString "inner");
            ("info", JObject [("type", JString "struct"); ("item_type", JString "Header")])]])]])].

(** testprog/src/values.json5:1-18 *)
Definition values_json5 : json :=
  JObject [
    ("name", JString "values");
    ("structs", JArray [
      JObject [
        ("name", JString "ValueInt8");
        ("fields", JArray [
          JObject [
            ("name", JString "data");
            ("info", JObject [("type", JString "signed"); ("bits", JInt 8)])]])];
      JObject [
        ("name", JString "ValueInt16");
        ("fields", JArray [
          JObject [
            ("name", JString "data");
            ("info", JObject [("type", JString "signed"); ("bits", JInt 16)])]])];
      JObject [
        ("name", JString "ValueInt32");
        ("fields", JArray [
          JObject [
            ("name", JString "data");
            ("info", JObject [("type", JString "signed"); ("bits", JInt 32)])]])];
      JObject [
        ("name", JString "ValueInt64");
        ("fields", JArray [
          JObject [
            ("name", JString "data");
            ("info", JObject [("type", JString "signed"); ("bits", JInt 64)])]])];
      JObject [
        ("name", JString "ValueUInt8");
        ("fields", JArray [
          JObject [
            ("name", JString "data");
            ("info", JObject [("type", JString "unsigned"); ("bits", JInt 8)])]])];
      JObject [
        ("name", JString "ValueUInt16");
        ("fields", JArray [
          JObject [
            ("name", JString "data");
            ("info", JObject [("type", JString "unsigned"); ("bits", JInt 16)])]])];
      JObject [
        ("name", JString "ValueUInt32");
        ("fields", JArray [
          JObject [
            ("name", JString "data");
            ("info", JObject [("type", JString "unsigned"); ("bits", JInt 32)])]])];
      JObject [
        ("name", JString "ValueUInt64");
        ("fields", JArray [
          JObject [
            ("name", JString "data");
            ("info", JObject [("type", JString "unsigned"); ("bits", JInt 64)])]])];
      JObject [
        ("name", JString "ValueFloat");
        ("fields", JArray [
          JObject [
            ("name", JString "data");
            ("info", JObject [("type", JString "float"); ("bits", JInt 32)])]])];
      JObject [
        ("name", JString "ValueDouble");
        ("fields", JArray [
          JObject [
            ("name", JString "data");
            ("info", JObject [("type", JString "float"); ("bits", JInt 64)])]])]]);
    ("messages", JArray [
      JObject [
        ("name", JString "ValueString");
        ("fields", JArray [JObject [("name", JString "data"); ("info", JObject [("type", JString "string")])]])]])].

(** testprog/src/views.json5:1-33 *)
Definition views_json5 : json :=
  JObject [
    ("name", JString "views");
    ("structs", JArray [
      JObject [
        ("name", JString "Floats");
        ("fields", JArray [
          JObject [
            ("name", JString "a");
            ("info", JObject [("type", JString "float"); ("bits", JInt 17)]);
            ("view", JObject [("type", JString "float-range"); ("min", JInt 0); ("max", JInt 10)])];
          JObject [
            ("name", JString "b");
            ("info", JObject [("type", JString "float"); ("bits", JInt 7)]);
            ("view", JObject [
              ("type", JString "float-multiplier");
              ("multiplier", JFloat (S754_finite false 7205759403792794 (-56)))])]])]])].
