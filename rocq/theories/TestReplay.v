(** The tests of the test program (testprog/tests/*.rs), replayed in the model: the
    descriptions are read, compiled and used as testprog/build.rs and the tests do. They
    check the transcription of the code; they are not used in any proof. The descriptions
    themselves are the subject of C82. *)

From Coq Require Import Arith NArith ZArith Ascii String List Bool Floats.SpecFloat.
From Verif Require Import Base Schema Codec Compiler Loader Access Runtime Gen Json SpecLoader SpecRun
  Template Templates Driver SpecDriver DriverThms GenText SpecTemplate TemplateErrors TemplateRefute BuildScript SpecBuild BuildThms TestJson TestProgram.
Import ListNotations.
Local Open Scope string_scope.

Example build_names :
  map (fun r => match build r with Ok (ps, _) => map p_name ps | _ => [] end) runs =
  [["test"; "structs"; "bits"; "bits2"; "views"; "struct_arrays"; "enums"; "values"; "unions2"; "arrays"];
   ["unions"]; ["lists"]].
Proof. vm_compute. reflexivity. Qed.

Definition get {A} (o : option A) : outcome unit A := match o with Some v => Ok v | None => Err tt end.
Definition run1 := Eval vm_compute in build first_run.
Definition run2 := Eval vm_compute in build second_run.
Definition run3 := Eval vm_compute in build third_run.
Definition struct_of (run : outcome unit (list protocol * world)) (p s : string) : outcome unit structure :=
  '(ps, _) <- run ;;
  p <- get (find (fun x => String.eqb (p_name x) p) ps) ;;
  get (find (fun x => String.eqb (s_name x) s) (p_structs p)).
Definition message_of (run : outcome unit (list protocol * world)) (p s : string) : outcome unit message :=
  '(ps, _) <- run ;;
  p <- get (find (fun x => String.eqb (p_name x) p) ps) ;;
  get (find (fun x => String.eqb (m_name x) s) (p_messages p)).
Definition marked_in (run : outcome unit (list protocol * world)) (id : N) : bool :=
  match run with Ok (_, w) => marked w id | _ => false end.

Definition name_of (f : field) : string :=
  match f with FFixed f => ff_name f | FArray f => fa_name f | FStruct n _ _ => n end.
Definition scalar (s : structure) (n : string) : outcome unit fixed_field :=
  match find (fun f => String.eqb (name_of f) n) (s_fields s) with Some (FFixed f) => Ok f | _ => Err tt end.
Definition array (s : structure) (n : string) : outcome unit array_field :=
  match find (fun f => String.eqb (name_of f) n) (s_fields s) with Some (FArray f) => Ok f | _ => Err tt end.

(** Calls of accessors in order; the results of the getters. *)
Inductive access :=
| Set_ (n : string) (v : vval) | SetRaw (n : string) (v : N) | Get (n : string) | GetRaw (n : string)
| SetItem (n : string) (i v : N) | GetItem (n : string) (i : N)
| Inside (n : string) (l : list access).
Fixpoint run_one (fuel : nat) (s : structure) (data : bytes) (a : access) {struct fuel} : outcome unit (bytes * list vval) :=
  match fuel with
  | O => Err tt
  | S fuel =>
      match a with
      | Set_ n v => f <- scalar s n ;; d <- set_view Debug f data v ;; Ok (d, [])
      | SetRaw n v => f <- scalar s n ;; d <- set_raw Debug f data v ;; Ok (d, [])
      | Get n => f <- scalar s n ;; v <- get_view Debug f data ;; Ok (data, [v])
      | GetRaw n => f <- scalar s n ;; v <- get_raw Debug f data ;; Ok (data, [XInt (Z.of_N v)])
      | SetItem n i v => f <- array s n ;; d <- arr_set Debug f data i v ;; Ok (d, [])
      | GetItem n i => f <- array s n ;; v <- arr_get Debug f data i ;; Ok (data, [XInt (Z.of_N v)])
      | Inside n l =>
          match find (fun f => String.eqb (name_of f) n) (s_fields s) with
          | Some (FStruct _ r loc) =>
              w <- slice data (l_byte_offset loc) (l_byte_offset loc + l_byte_size loc) ;;
              '(w', vs) <- foldM (fun st a => '(d, r) <- run_one fuel r (fst st) a ;; Ok (d, (snd st ++ r)%list)) (w, []) l ;;
              d <- update_slice data (l_byte_offset loc) (l_byte_offset loc + l_byte_size loc) (fun _ => Ok w') ;;
              Ok (d, vs)
          | _ => Err tt
          end
      end
  end.
Definition run_on (s : structure) (data : bytes) (l : list access) : outcome unit (bytes * list vval) :=
  foldM (fun st a => '(d, r) <- run_one 8 s (fst st) a ;; Ok (d, (snd st ++ r)%list)) (data, []) l.
Definition session (s : outcome unit structure) (l : list access) : outcome unit (N * list vval) :=
  s <- s ;;
  '(_, vs) <- run_on s (new_on_stack s) l ;;
  Ok (s_byte_size s, vs).

(** ** tests/test_bits.rs *)

Definition I (z : Z) := XInt z.
Definition set_get n z := [Set_ n (XInt z); Get n].
Definition bits_calls :=
  ([Set_ "a" (I (-8)); Set_ "b" (I 15); Set_ "c" (I (-65536)); Set_ "d" (I 127); Get "a"; Get "b"; Get "c"; Get "d";
    Set_ "c" (I 65535); Get "c"] ++
   flat_map (fun z => [Set_ "a" (XInt z); Get "a"; GetRaw "a"]) [-7; -6; -5; 1; 4]%Z)%list.
Definition bits_results := map XInt [-8; 15; -65536; 127; 65535; -7; 9; -6; 10; -5; 11; 1; 1; 4; 4]%Z.
Definition raw_calls :=
  ([SetRaw "a" 15; SetRaw "b" 15; SetRaw "c" 65536; SetRaw "d" 127; SetRaw "c" 65536;
    GetRaw "a"; Get "a"; GetRaw "b"; GetRaw "c"; GetRaw "d"] ++
   flat_map (fun i => [SetRaw "a" i; Get "a"]) [0; 1; 2; 3; 4; 5; 6; 7; 8; 9; 10; 11; 12; 13; 14]%N)%list.
Definition raw_results :=
  map XInt [15; -1; 15; 65536; 127; 0; 1; 2; 3; 4; 5; 6; 7; -8; -7; -6; -5; -4; -3; -2]%Z.

Example test_bits_numbers : session (struct_of run1 "bits" "Numbers") bits_calls = Ok (4%N, bits_results).
Proof. vm_compute. reflexivity. Qed.
Example test_bits_numbers_raw : session (struct_of run1 "bits" "Numbers") raw_calls = Ok (4%N, raw_results).
Proof. vm_compute. reflexivity. Qed.
Example test_bits_numbers2 : session (struct_of run1 "bits2" "Numbers") bits_calls = Ok (4%N, bits_results).
Proof. vm_compute. reflexivity. Qed.
Example test_bits_numbers_raw2 : session (struct_of run1 "bits2" "Numbers") raw_calls = Ok (4%N, raw_results).
Proof. vm_compute. reflexivity. Qed.

(** ** tests/test_enums.rs *)

Example test_enums_basic :
  session (struct_of run1 "enums" "Header")
    [Get "type"; Set_ "type" (XEnum (Some 1%N)); Get "type"; SetRaw "type" 255; Get "type";
     Set_ "type" (XEnum (Some 11%N)); Get "type"] =
  Ok (1%N, [XEnum (Some 0%N); XEnum (Some 1%N); XEnum None; XEnum (Some 11%N)]).
Proof. vm_compute. reflexivity. Qed.

(** ** tests/test_structs.rs: floats by their bit patterns *)

Definition f32_4242 := 1166315520%N.
Definition f64_4242_4242 := 4661386609438951159%N.
Definition nums_set := [Set_ "u_a" (I 305419947); Set_ "a" (I (-424242)); Set_ "u_b" (I 4660); Set_ "b" (I (-4242));
  Set_ "u_c" (I 18); Set_ "c" (I (-42))].
Definition nums_get := [Get "u_a"; Get "a"; Get "u_b"; Get "b"; Get "u_c"; Get "c"].
Definition nums_got := map XInt [305419947; -424242; 4660; -4242; 18; -42]%Z.
Definition flags_set := map (fun n => Set_ n (XBool true)) ["a"; "b"; "c"; "d"].
Definition flags_get := map Get ["a"; "b"; "c"; "d"].
Definition flags_got := [XBool true; XBool true; XBool true; XBool true].
Definition floats_set := [Set_ "a" (XFloatBits f32_4242); Set_ "b" (XFloatBits f64_4242_4242)].
Definition floats_get := [Get "a"; Get "b"].
Definition floats_got := [XFloatBits f32_4242; XFloatBits f64_4242_4242].

Example test_structs_numbers :
  session (struct_of run1 "structs" "Numbers") (nums_set ++ nums_get)%list = Ok (14%N, nums_got).
Proof. vm_compute. reflexivity. Qed.
Example test_structs_flags :
  session (struct_of run1 "structs" "Flags") (flags_set ++ flags_get)%list = Ok (15%N, flags_got).
Proof. vm_compute. reflexivity. Qed.
Example test_structs_floats :
  session (struct_of run1 "structs" "Floats") (floats_set ++ floats_get)%list = Ok (12%N, floats_got).
Proof. vm_compute. reflexivity. Qed.
Example test_structs_master :
  session (struct_of run1 "structs" "Master")
    [Inside "nums" nums_set; Inside "flags" flags_set; Inside "floats" floats_set;
     Inside "nums" nums_get; Inside "flags" flags_get; Inside "floats" floats_get] =
  Ok (41%N, (nums_got ++ flags_got ++ floats_got)%list).
Proof. vm_compute. reflexivity. Qed.

(** ** tests/test_struct_arrays.rs *)

Definition f32_42_42 := 1110027796%N.
Definition text (s : string) : bytes := map N_of_ascii (list_ascii_of_string s).
Example test_struct_arrays_basic :
  session (struct_of run1 "struct_arrays" "Basic")
    (map (fun i => SetItem "p3" i f32_42_42) [0; 1; 2; 3]%N ++ map (GetItem "p3") [0; 1; 2; 3]%N ++
     [Set_ "p1" (I 424242); Get "p1"] ++
     map (fun ic => SetItem "p2" (N.of_nat (fst ic)) (snd ic)) (combine (seq 0 14) (text "this is a test")) ++
     map (fun i => GetItem "p2" (N.of_nat i)) (seq 0 14) ++
     [SetItem "p4" 0 11259375; SetItem "p4" 1 11259375; GetItem "p4" 0; GetItem "p4" 1])%list =
  Ok (58%N, (map (fun n => XInt (Z.of_N n)) ([f32_42_42; f32_42_42; f32_42_42; f32_42_42; 424242]%N ++ text "this is a test" ++
             [11259375; 11259375]%N))%list).
Proof. vm_compute. reflexivity. Qed.


(** ** tests/test_views.rs *)

Definition feq (delta expected : spec_float) (v : vval) : bool :=
  match v with
  | XFloat x => match SFcompare (SFabs (SFsub 24 128 x expected)) delta with Some Gt | None => false | _ => true end
  | _ => false
  end.
Definition f4_4242 := S754_finite false 9278220 (-21).
Definition f12_7 := S754_finite false 13316915 (-20).
Definition f0_0001 := S754_finite false 13743895 (-37).
Definition f0_1 := S754_finite false 13421773 (-27).
Example test_views_floats :
  match session (struct_of run1 "views" "Floats")
    [Set_ "a" (XFloat f4_4242); Set_ "b" (XFloat f12_7); Get "a"; Get "b"; SetRaw "b" 127; Get "b"] with
  | Ok (_, [a; b; c]) => feq f0_0001 f4_4242 a && feq f0_1 f12_7 b && feq f0_1 f12_7 c
  | _ => false
  end = true.
Proof. vm_compute. reflexivity. Qed.

(** ** tests/test_arrays.rs *)

Definition relabel {A} (x : rres A) : outcome unit A := match x with Ok v => Ok v | Err _ => Err tt | Panic => Panic end.
Definition written (x : bytes * rres unit) : outcome unit bytes :=
  match x with (b, Ok _) => Ok b | (_, Err _) => Err tt | (_, Panic) => Panic end.
Definition set_all (s : structure) (l : list access) (w : bytes) : outcome unit bytes :=
  '(w', _) <- run_on s w l ;; Ok w'.
Definition row id count slot := [Set_ "id" (XInt id); Set_ "count" (XInt count); Set_ "slot" (XInt slot)].
Definition four_items (s : structure) : outcome unit (listing bytes) :=
  arr <- arr_from_parts Debug 3 (repeat 0%N 12) 4 ;;
  arr <- get arr ;;
  d <- arr_item_mut Debug 3 (li_data arr) 0 (set_all s (row 3 1024 10)) ;;
  d <- arr_item_mut Debug 3 d 1 (set_all s (row 2 1023 9)) ;;
  d <- arr_item_mut Debug 3 d 2 (set_all s (row 1 16 8)) ;;
  d <- arr_item_mut Debug 3 d 3 (set_all s (row 0 4 7)) ;;
  Ok {| li_data := d; li_len := li_len arr |}.
Definition item_values (s : structure) (d : bytes) (i : N) : outcome unit (list vval) :=
  w <- arr_item Debug 3 d i ;; '(_, vs) <- run_on s w [Get "id"; Get "count"; Get "slot"] ;; Ok vs.

Definition arrays_msg : outcome unit (bool * N * nat * list (list vval)) :=
  s <- struct_of run1 "arrays" "Item" ;;
  x <- message_of run1 "arrays" "Msg" ;;
  arr <- four_items s ;;
  d <- arr_items_mut 3 (li_data arr) (fun i => set_all s [Set_ "slot" (XInt (Z.of_nat i))]) ;;
  b <- written (write_vec Debug x (VMsg [VListing d (li_len arr)]) []) ;;
  '(n, v) <- relabel (read_msg Debug (marked_in run1) x b) ;;
  match v with
  | VMsg [VListing d k] =>
      chunks <- arr_items 3 d ;;
      vs <- all (item_values s d) [0; 1; 2; 3]%N ;;
      Ok (N.eqb n (len b), k, length chunks, vs)
  | _ => Err tt
  end.
Example test_arrays_msg :
  arrays_msg = Ok (true, 4%N, 4, map (map XInt) [[3; 1024; 0]; [2; 1023; 1]; [1; 16; 2]; [0; 4; 3]]%Z).
Proof. vm_compute. reflexivity. Qed.

Definition arrays_msg1 (present : bool) : outcome unit (option (N * list (list vval))) :=
  s <- struct_of run1 "arrays" "Item" ;;
  x <- message_of run1 "arrays" "Msg1" ;;
  arr <- four_items s ;;
  b <- written (write_vec Debug x (VMsg [VOpt (if present then Some (VListing (li_data arr) (li_len arr)) else None)]) []) ;;
  '(_, v) <- relabel (read_msg Debug (marked_in run1) x b) ;;
  match v with
  | VMsg [VOpt (Some (VListing d k))] => vs <- all (item_values s d) [0; 1; 2; 3]%N ;; Ok (Some (k, vs))
  | VMsg [VOpt None] => Ok None
  | _ => Err tt
  end.
Example test_arrays_msg1_1 :
  arrays_msg1 true = Ok (Some (4%N, map (map XInt) [[3; 1024; 10]; [2; 1023; 9]; [1; 16; 8]; [0; 4; 7]]%Z)).
Proof. vm_compute. reflexivity. Qed.
Example test_arrays_msg1_2 : arrays_msg1 false = Ok None.
Proof. vm_compute. reflexivity. Qed.

(** ** tests/test_test.rs *)

Definition test_value := VMsg [VStr (text "a test"); VStr (text "hello world");
  VOpt (Some (VMsg [VStr (text "this is a test"); VScalar 42]))].
Example test_test_offsets :
  (x <- message_of run1 "test" "Test" ;;
   b <- written (write_vec Debug x test_value []) ;;
   '(_, v) <- relabel (read_msg Debug (marked_in run1) x b) ;;
   '(_, (v', o)) <- relabel (read_msg_offsets Debug (marked_in run1) x b) ;;
   Ok (v, v', o)) =
  Ok (test_value, test_value,
      MkOffsets [(0, 7, None); (7, 19, None); (19, 39, Some (MkOffsets [(0, 15, None); (15, 19, None)]))]%N).
Proof. vm_compute. reflexivity. Qed.

(** ** tests/test_unions.rs *)

Definition values_struct := struct_of run1 "values".
(** The variants in order: Null, String, Int8 to Int64, UInt8 to UInt64, Float, Double. *)
Definition item_with (variant : nat) (content : option value) : outcome unit (bytes * value) :=
  x <- message_of run2 "unions" "Item" ;;
  '(ps, _) <- run2 ;;
  u <- get (nth_error (flat_map p_unions ps) 0) ;;
  h <- struct_of run1 "enums" "Header" ;;
  d <- relabel (set_discriminant Debug u variant (new_on_stack h)) ;;
  b <- written (write_vec Debug x (VMsg [VStruct d; VStr (text "test"); VUnion variant content]) []) ;;
  Ok (b, VMsg [VStruct d; VStr (text "test"); VUnion variant content]).
(** The type, the name, the variant and the content that are read back. *)
Definition item_again (variant : nat) (content : option value) : outcome unit (vval * bytes * nat * option value) :=
  x <- message_of run2 "unions" "Item" ;;
  h <- struct_of run1 "enums" "Header" ;;
  f <- scalar h "type" ;;
  '(b, _) <- item_with variant content ;;
  '(n, v) <- relabel (read_msg Debug (marked_in run2) x b) ;;
  if N.eqb n (len b) then
    match v with
    | VMsg [VStruct d; VStr s; VUnion k c] => t <- get_view Debug f d ;; Ok (t, s, k, c)
    | _ => Err tt
    end
  else Err tt.
Definition data_of (s : string) (v : vval) : outcome unit value :=
  s <- values_struct s ;; '(d, _) <- run_on s (new_on_stack s) [Set_ "data" v] ;; Ok (VStruct d).
Definition number_again (variant : nat) (s : string) (v : vval) : outcome unit (vval * bytes * nat * vval) :=
  c <- data_of s v ;;
  '(t, n, k, c) <- item_again variant (Some c) ;;
  match c with
  | Some (VStruct d) =>
      st <- values_struct s ;; f <- scalar st "data" ;; r <- get_view Debug f d ;; Ok (t, n, k, r)
  | _ => Err tt
  end.
Definition ty (n : N) := XEnum (Some n).

Example test_unions_numbers :
  map (fun q => number_again (fst (fst q)) (snd (fst q)) (snd q))
    [(2, "ValueInt8", I (-42)); (3, "ValueInt16", I (-4242)); (4, "ValueInt32", I (-424242));
     (5, "ValueInt64", I (-42424242)); (6, "ValueUInt8", I 42); (7, "ValueUInt16", I 4242);
     (8, "ValueUInt32", I 424242); (9, "ValueUInt64", I 42424242);
     (10, "ValueFloat", XFloatBits f32_42_42); (11, "ValueDouble", XFloatBits 4631167492662983498%N)] =
  map Ok
    [(ty 2, text "test", 2, I (-42)); (ty 3, text "test", 3, I (-4242)); (ty 4, text "test", 4, I (-424242));
     (ty 5, text "test", 5, I (-42424242)); (ty 6, text "test", 6, I 42); (ty 7, text "test", 7, I 4242);
     (ty 8, text "test", 8, I 424242); (ty 9, text "test", 9, I 42424242);
     (ty 10, text "test", 10, XFloatBits f32_42_42); (ty 11, text "test", 11, XFloatBits 4631167492662983498%N)].
Proof. vm_compute. reflexivity. Qed.
Example test_unions_null : item_again 0 None = Ok (ty 0, text "test", 0, None).
Proof. vm_compute. reflexivity. Qed.
Example test_unions_string :
  item_again 1 (Some (VMsg [VStr (text "this is a test")])) =
  Ok (ty 1, text "test", 1, Some (VMsg [VStr (text "this is a test")])).
Proof. vm_compute. reflexivity. Qed.

(** ** tests/test_lists.rs *)

Definition item1 (h : bytes) := VMsg [VStruct h; VStr (text "test"); VUnion 1 (Some (VMsg [VStr (text "this is a test")]))].
Definition item2 (h : bytes) (c : value) := VMsg [VStruct h; VStr (text "test1"); VUnion 3 (Some c)].
Definition added (x : listing bytes * rres unit) : outcome unit (listing bytes) :=
  match x with (l, Ok _) => Ok l | (_, Err _) => Err tt | (_, Panic) => Panic end.
Definition span_run : outcome unit value :=
  item <- message_of run2 "unions" "Item" ;;
  h <- struct_of run1 "enums" "Header" ;;
  t <- struct_of run3 "lists" "Times" ;;
  '(times, _) <- run_on t (new_on_stack t) [Set_ "start" (I 42424242); Set_ "end" (I 42424242)] ;;
  '(h1, _) <- run_on h (new_on_stack h) [Set_ "type" (ty 1)] ;;
  '(h2, _) <- run_on h h1 [Set_ "type" (ty 3)] ;;
  c <- data_of "ValueInt16" (I (-4242)) ;;
  l <- added (write_item Debug (write_vec Debug item (item1 h1)) (li_new [])) ;;
  l <- added (write_item Debug (write_vec Debug item (item2 h2 c)) l) ;;
  Ok (VMsg [VStruct times; VListing (li_data l) (li_len l)]).
(** Start, end, number of items; name and content of the two items. *)
Definition span_seen := (list vval * N * bytes * option value * bytes * vval)%type.
Definition check_span (v : value) : outcome unit span_seen :=
  item <- message_of run2 "unions" "Item" ;;
  t <- struct_of run3 "lists" "Times" ;;
  i16 <- values_struct "ValueInt16" ;;
  match v with
  | VMsg [VStruct times; VListing d n] =>
      '(_, ts) <- run_on t times [Get "start"; Get "end"] ;;
      '(r, _) <- relabel (iter_take Debug (read_msg Debug (marked_in run3) item) 2 (d, n)) ;;
      match r with
      | [Ok (VMsg [_; VStr n1; VUnion 1 c1]); Ok (VMsg [_; VStr n2; VUnion 3 (Some (VStruct c2))])] =>
          f <- scalar i16 "data" ;; x <- get_view Debug f c2 ;; Ok (ts, n, n1, c1, n2, x)
      | _ => Err tt
      end
  | _ => Err tt
  end.
Definition expected_span : span_seen :=
  ([I 42424242; I 42424242], 2%N, text "test", Some (VMsg [VStr (text "this is a test")]), text "test1", I (-4242)).

Example test_lists_run :
  (x <- message_of run3 "lists" "SpanRun" ;;
   v <- span_run ;;
   b <- written (write_vec Debug x v []) ;;
   '(n, v') <- relabel (read_msg Debug (marked_in run3) x b) ;;
   r <- check_span v' ;;
   Ok (N.eqb n (len b), r)) = Ok (true, expected_span).
Proof. vm_compute. reflexivity. Qed.
Example test_lists_dataset :
  (x <- message_of run3 "lists" "SpanRun" ;;
   y <- message_of run3 "lists" "Dataset" ;;
   v <- span_run ;;
   l <- added (write_items Debug (repeat (write_vec Debug x v) 3) (li_new [])) ;;
   b <- written (write_vec Debug y (VMsg [VListing (li_data l) (li_len l)]) []) ;;
   '(_, v) <- relabel (read_msg Debug (marked_in run3) y b) ;;
   match v with
   | VMsg [VListing d n] =>
       '(r, _) <- relabel (iter_take Debug (read_msg Debug (marked_in run3) x) 3 (d, n)) ;;
       rs <- all (fun i => v <- relabel i ;; check_span v) r ;;
       Ok (n, rs)
   | _ => Err tt
   end) = Ok (3%N, [expected_span; expected_span; expected_span]).
Proof. vm_compute. reflexivity. Qed.

(** ** Tests beside the code *)

(** runtime/src/codec/bytes.rs:94-98 *)
Example test_bytes_basic : byte_read (E := unit) LE 4 [255; 255; 255; 255]%N = Ok 4294967295%N.
Proof. vm_compute. reflexivity. Qed.
(** runtime/src/codec/bits.rs:110-117 *)
Example test_bits_little_endian :
  (bit_read (E := unit) Debug LE 4 0 32 [255; 255; 255; 255], bit_read (E := unit) Debug LE 1 0 1 [255],
   bit_read (E := unit) Debug LE 1 0 4 [255], bit_read (E := unit) Debug LE 1 4 4 [255])%N =
  (Ok 4294967295, Ok 1, Ok 15, Ok 15)%N.
Proof. vm_compute. reflexivity. Qed.
(** runtime/src/codec/bits.rs:119-126 *)
Example test_bits_big_endian :
  bit_read (E := unit) Debug BE 2 0 12 [171; 240]%N = Ok 2751%N /\
  (b <- bit_write (E := unit) Debug BE 2 0 12 [0; 0]%N 2751 ;; bit_read Debug BE 2 0 12 b) = Ok 2751%N.
Proof. split; vm_compute; reflexivity. Qed.
(** compiler/src/gen/rust/structure.rs:50-60 *)
Example test_template_render :
  match compile ascii_casing structure_template with
  | Ok t => t_render (t_var t "name" "Test") "" ["decl"]
  | Err e => Err e
  | Panic => Panic
  end = Ok "#[derive(Copy, Clone, Default, Debug)]
pub struct Test<T> {
    data: T
}
".
Proof. vm_compute. reflexivity. Qed.

(** ** testprog/build.rs: the three runs of [generate_rust] in an empty directory *)

Definition built (l : list input) (m : mem) : outcome unit (ending * mem) :=
  calls <- all parsed l ;;
  Ok (generate_rust mem_fs Debug build_formats quoted calls true [ReadsMessages true; WritesMessages true] (Some "out") m).
Definition line (upper name : string) := "cargo::rustc-env=BP3D_PROTOC_" ++ upper ++ "=out/" ++ name ++ "/umbrella.rs".
Example test_build :
  ('(e1, m) <- built first_run [] ;;
   '(e2, m) <- built second_run m ;;
   '(e3, _) <- built third_run m ;;
   Ok [e1; e2; e3]) =
  Ok [Printed [line "TEST" "test"; line "STRUCTS" "structs"; line "BITS" "bits"; line "BITS2" "bits2"; line "VIEWS" "views";
               line "STRUCT_ARRAYS" "struct_arrays"; line "ENUMS" "enums"; line "VALUES" "values"; line "UNIONS2" "unions2";
               line "ARRAYS" "arrays"];
      Printed [line "UNIONS" "unions"]; Printed [line "LISTS" "lists"]].
Proof. vm_compute. reflexivity. Qed.
