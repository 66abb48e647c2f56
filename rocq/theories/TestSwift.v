(** The tests of the Swift runtime, Swift/BP3DProtoTests/BP3DProtoTests.swift,
    run in the model, in both build profiles. *)

From Coq Require Import Arith NArith ZArith Ascii String List Bool.
From Verif Require Import Base Codec Swift.
Import ListNotations.
Local Open Scope N_scope.

Definition bytes_of (s : string) : bytes := map N_of_ascii (list_ascii_of_string s).
(** The strings of the tests are ASCII. *)
Definition read (m : mode) (t : sty) (b : dbuf) : sres sval :=
  '(_, v) <- s_from (fun s => s) m t b ;; Ok v.

Definition sample : dbuf := db_of_bytes [0xAB; 0xCD; 0xEF; 0x12; 0x34; 0x56; 0x67; 0x89].

(** BP3DProtoTests.swift:39-49 *)
Example test_value_le : forall m,
  read m (SVal LE 1) sample = Ok (SN 0xAB) /\
  read m (SVal LE 2) sample = Ok (SN 0xCDAB) /\
  read m (SVal LE 4) sample = Ok (SN 0x12EFCDAB) /\
  read m (SVal LE 8) sample = Ok (SN 0x8967563412EFCDAB).
Proof. intros []; vm_compute; auto. Qed.

(** BP3DProtoTests.swift:51-61 *)
Example test_value_be : forall m,
  read m (SVal BE 1) sample = Ok (SN 0xAB) /\
  read m (SVal BE 2) sample = Ok (SN 0xABCD) /\
  read m (SVal BE 4) sample = Ok (SN 0xABCDEF12) /\
  read m (SVal BE 8) sample = Ok (SN 0xABCDEF1234566789).
Proof. intros []; vm_compute; auto. Qed.

(** BP3DProtoTests.swift:63-69 *)
Example test_value_le_write : forall m,
  (data <- s_write (SVal LE 8) (SN 0xABCDEF1234566789) db_empty ;;
   d <- db_to_data data ;;
   v <- read m (SVal LE 8) data ;; Ok (d, v)) =
  Ok ([0x89; 0x67; 0x56; 0x34; 0x12; 0xEF; 0xCD; 0xAB], SN 0xABCDEF1234566789).
Proof. intros []; vm_compute; reflexivity. Qed.

(** BP3DProtoTests.swift:71-77 *)
Example test_value_be_write : forall m,
  (data <- s_write (SVal BE 8) (SN 0xABCDEF1234566789) db_empty ;;
   d <- db_to_data data ;;
   v <- read m (SVal BE 8) data ;; Ok (d, v)) =
  Ok ([0xAB; 0xCD; 0xEF; 0x12; 0x34; 0x56; 0x67; 0x89], SN 0xABCDEF1234566789).
Proof. intros []; vm_compute; reflexivity. Qed.

(** BP3DProtoTests.swift:79-88 *)
Example test_null_terminated_string : forall m,
  (data <- s_write SNts (SS (bytes_of "test")) db_empty ;;
   str <- read m SNts data ;;
   data <- s_write SNts (SS (bytes_of "toto")) (db_clear data) ;;
   str1 <- read m SNts data ;;
   Ok (str, str1)) = Ok (SS (bytes_of "test"), SS (bytes_of "toto")).
Proof. intros []; vm_compute; reflexivity. Qed.

(** BP3DProtoTests.swift:90-99 *)
Example test_varchar_string : forall m,
  (data <- s_write (SVarchar LE 1) (SS (bytes_of "test")) db_empty ;;
   str <- read m (SVarchar LE 1) data ;;
   data <- s_write (SVarchar BE 4) (SS (bytes_of "toto")) (db_clear data) ;;
   str1 <- read m (SVarchar BE 4) data ;;
   Ok (str, str1)) = Ok (SS (bytes_of "test"), SS (bytes_of "toto")).
Proof. intros []; vm_compute; reflexivity. Qed.

(** BP3DProtoTests.swift:101-114 *)
Example test_optionals : forall m, let t := SOpt (SVarchar BE 4) in
  (data <- s_write t (SO (Some (SS (bytes_of "toto")))) db_empty ;;
   str <- read m t data ;;
   data <- s_write t (SO (Some (SS (bytes_of "test")))) (db_clear data) ;;
   str1 <- read m t data ;;
   data <- s_write t (SO None) (db_clear data) ;;
   str2 <- read m t data ;;
   Ok (str, str1, str2)) =
  Ok (SO (Some (SS (bytes_of "toto"))), SO (Some (SS (bytes_of "test"))), SO None).
Proof. intros []; vm_compute; reflexivity. Qed.

(** BP3DProtoTests.swift:116-122 *)
Example test_bit_codec_le : forall m, let buffer := db_of_bytes [0xFF; 0xFF; 0xFF; 0xFF] in
  (w <- db_through m buffer 4 ;;
   x0 <- s_bit_read m LE 4 0 32 w ;;
   w <- db_closed m buffer 0 1 ;;
   x1 <- s_bit_read m LE 1 0 1 w ;;
   x2 <- s_bit_read m LE 1 0 4 w ;;
   x3 <- s_bit_read m LE 1 4 4 w ;;
   Ok [x0; x1; x2; x3]) = Ok [0xFFFFFFFF; 1; 0xF; 0xF].
Proof. intros []; vm_compute; reflexivity. Qed.

(** BP3DProtoTests.swift:124-131; [buffer1] sees the write to [b]. *)
Example test_bit_codec_be : forall m,
  (w <- db_closed m (db_of_bytes [0xAB; 0xF0]) 0 2 ;;
   x0 <- s_bit_read m BE 2 0 12 w ;;
   b <- db_through m (db_of_bytes [0; 0]) 2 ;;
   b <- s_bit_write m BE 2 0 12 0xABF b ;;
   w <- db_closed m (db_of_bytes (db_data b)) 0 2 ;;
   x1 <- s_bit_read m BE 2 0 12 w ;;
   Ok [x0; x1]) = Ok [0xABF; 0xABF].
Proof. intros []; vm_compute; reflexivity. Qed.

(** BP3DProtoTests.swift:133-147 *)
Example test_array_codec : forall m,
  let set b i v := s_array_set m BE 4 32 b i v in
  let get b i := s_array_get m BE 4 32 b i in
  let buffer := db_of_bytes (repeat 0 16) in
  (n <- s_array_count 32 buffer ;;
   b <- set buffer 0%Z 0xAB ;; b <- set b 1%Z 0xCD ;; b <- set b 2%Z 0xEF ;; b <- set b 3%Z 0x12 ;;
   x0 <- get b 0%Z ;; x1 <- get b 1%Z ;; x2 <- get b 2%Z ;; x3 <- get b 3%Z ;;
   b <- set b 3%Z 0x42424242 ;; x4 <- get b 3%Z ;;
   Ok (n, [x0; x1; x2; x3; x4])) = Ok (4%Z, [0xAB; 0xCD; 0xEF; 0x12; 0x42424242]).
Proof. intros []; vm_compute; reflexivity. Qed.
