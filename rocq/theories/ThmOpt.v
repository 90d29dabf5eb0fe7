(** Property theorems.  Proofs are in OptProps.v; this file only restates the
    statements.  Written by tools/gen_thm.py. *)
From Coq Require Import Ascii String.
From Verif Require Import Base XmlModel OptModel OptSpec.
From Verif Require Import OptProofs OptProofs2.
From Verif Require Import OptProps.

(** [C48] Missing: negative integers, integers out of the range of int, other texts.  For
    the others the natural type is stored, from the command line and from a file. *)
Theorem option_values_typed_partial : forall v x, stored_as v x ->
  natural_type v x /\
  (forall o k, ~ In "="%char k -> exists o', parse [txt "--" ++ k ++ txt "=" ++ v] o = Ok o' /\ o' k = Some x) /\
  (forall files filename content ls o i k,
     files filename = Some content -> ascii_text content -> lines_of content ls ->
     3 <= List.length filename -> skipn (List.length filename - 3) filename = txt "ini" ->
     (forall i' k' v', assigns ls (txt "EllipticForest") i' k' v' -> exists x', stored_as v' x') ->
     assigns ls (txt "EllipticForest") i k v -> (forall i' v', assigns ls (txt "EllipticForest") i' k v' -> i' <= i) ->
     exists o', setFromFile files filename o = Ok o' /\ o' k = Some x).
Proof. exact @option_values_typed_partial_pf. Qed.
Print Assumptions option_values_typed_partial.

(** [C48] A negative integer, a word and a file name do not get their natural type. *)
Theorem option_values_typed_refuted :
  (exists v x o, natural_type v x /\ x = OInt (-5) /\ parse [txt "--k=" ++ v] (fun _ => None) = Ok o /\ o (txt "k") = Some (OStr [])) /\
  (exists v x o, natural_type v x /\ x = OStr (txt "abc") /\ parse [txt "--k=" ++ v] (fun _ => None) = Ok o /\ o (txt "k") = Some (OStr [])) /\
  (exists v x, natural_type v x /\ x = OStr (txt "mesh.vtk") /\ parse [txt "--k=" ++ v] (fun _ => None) = Throw invalid_argument) /\
  (exists v x, natural_type v x /\ x = OStr [] /\ parse [txt "--k=" ++ v] (fun _ => None) = Throw invalid_argument).
Proof. exact @option_values_typed_refuted_pf. Qed.
Print Assumptions option_values_typed_refuted.

(** [C48] Every other text without a full stop is lost: the empty text is stored. *)
Theorem option_text_lost : forall v o k, ascii_text v -> ~ In "."%char v -> v <> txt "true" -> v <> txt "false" ->
  (exists c, In c v /\ forall d, ~ is_digit c d) -> ~ In "="%char k ->
  exists o', parse [txt "--" ++ k ++ txt "=" ++ v] o = Ok o' /\ o' k = Some (OStr []).
Proof. exact @option_text_lost_pf. Qed.
Print Assumptions option_text_lost.

(** [C48] A text without a full stop in which a byte from 128 to 254 follows digits only: isdigit is called with a
    negative number, which is undefined. *)
Theorem option_nonascii_undefined : forall o k a c b, Forall (fun x => exists d, is_digit x d) a ->
  128 <= nat_of_ascii c <= 254 -> ~ In "."%char (a ++ c :: b) -> ~ In "="%char k ->
  parse [txt "--" ++ k ++ txt "=" ++ a ++ c :: b] o = UB.
Proof. exact @option_nonascii_undefined_pf. Qed.
Print Assumptions option_nonascii_undefined.

(** The value 3, then the two bytes of the micro sign in UTF-8, then m. *)
Example option_nonascii_example : forall o,
  parse [txt "--h=3" ++ [ascii_of_nat 194; ascii_of_nat 181] ++ txt "m"] o = UB.
Proof. exact @option_nonascii_example_expf. Qed.

(** [C48] Digits that write a number greater than the greatest int: std::out_of_range, nothing is stored. *)
Theorem option_integer_range : forall v n o k, numeral v n -> (2147483647 < n)%Z -> ~ In "="%char k ->
  parse [txt "--" ++ k ++ txt "=" ++ v] o = Throw out_of_range.
Proof. exact @option_integer_range_pf. Qed.
Print Assumptions option_integer_range.

Example option_integer_range_example : numeral (txt "2147483648") 2147483648 /\
  forall o, parse [txt "--n=2147483648"] o = Throw out_of_range.
Proof. exact @option_integer_range_example_expf. Qed.

(** [C48] A text that begins with a decimal number without exponent is stored as this number: the rest is dropped. *)
Theorem option_tail_dropped : forall v q c j o k, decimal_number v q -> ~ In "e"%char v -> ~ In "E"%char v ->
  (forall d, ~ is_digit c d) -> c <> "e"%char -> c <> "E"%char -> ~ In "="%char k ->
  exists o', parse [txt "--" ++ k ++ txt "=" ++ v ++ c :: j] o = Ok o' /\ o' k = Some (ODbl (Fin q)).
Proof. exact @option_tail_dropped_pf. Qed.
Print Assumptions option_tail_dropped.

(** The address 10.0.0.1 becomes the number 10. *)
Example option_tail_dropped_example : forall o,
  exists o', parse [txt "--host=10.0.0.1"] o = Ok o' /\ o' (txt "host") = Some (ODbl (Fin (Qc_of_Z 10))).
Proof. exact @option_tail_dropped_example_expf. Qed.

(** [C48] A text with a full stop that begins with a letter other than i and n, as file names do:
    std::invalid_argument, nothing is stored. *)
Theorem option_words_rejected : forall c w o k,
  (65 <= nat_of_ascii c <= 90 \/ 97 <= nat_of_ascii c <= 122) -> ~ In c [ "i"; "I"; "n"; "N" ]%char ->
  In "."%char (c :: w) -> ~ In "="%char k ->
  parse [txt "--" ++ k ++ txt "=" ++ c :: w] o = Throw invalid_argument.
Proof. exact @option_words_rejected_pf. Qed.
Print Assumptions option_words_rejected.

Example option_words_rejected_example : forall o, parse [txt "--mesh=mesh.vtk"] o = Throw invalid_argument.
Proof. exact @option_words_rejected_example_expf. Qed.

(** Values of each kind: true, 1024, -2.50, .5, 1.5e-3. *)
Example stored_as_example : stored_as (txt "true") (OBool true) /\ stored_as (txt "1024") (OInt 1024) /\
  stored_as (txt "-2.50") (ODbl (Fin (Q2Qc (-5 # 2)))) /\ stored_as (txt ".5") (ODbl (Fin (Q2Qc (1 # 2)))) /\
  stored_as (txt "1.5e-3") (ODbl (Fin (Q2Qc (3 # 2000)))).
Proof. exact @stored_as_example_expf. Qed.

(** [C49] For every content of 7-bit characters in which the values assigned in the section are truth
    values, unsigned integers or decimal numbers: reading succeeds, the last assignment
    to a key in the section wins, and other keys keep their values.  White space is removed also inside keys
    and values.  Missing: other values, and files with carriage returns. *)
Theorem ini_file_partial : forall files filename content ls o,
  files filename = Some content -> ascii_text content -> lines_of content ls ->
  3 <= List.length filename -> skipn (List.length filename - 3) filename = txt "ini" ->
  (forall i k v, assigns ls (txt "EllipticForest") i k v -> exists x, stored_as v x) ->
  exists o', setFromFile files filename o = Ok o' /\
  forall k,
    (forall i v x, assigns ls (txt "EllipticForest") i k v ->
       (forall i' v', assigns ls (txt "EllipticForest") i' k v' -> i' <= i) -> stored_as v x -> o' k = Some x) /\
    ((forall i v, ~ assigns ls (txt "EllipticForest") i k v) -> o' k = o k).
Proof. exact @ini_file_partial_pf. Qed.
Print Assumptions ini_file_partial.

(** [C49] Without the condition on values: whenever reading succeeds, the keys that are
    not assigned in the section keep their values, and every key that is assigned exists afterwards. *)
Theorem ini_file_keys_partial : forall files filename content ls o o',
  files filename = Some content -> lines_of content ls -> setFromFile files filename o = Ok o' ->
  (forall k, (forall i v, ~ assigns ls (txt "EllipticForest") i k v) -> o' k = o k) /\
  (forall i k v, assigns ls (txt "EllipticForest") i k v -> optionExists o' k = true).
Proof. exact @ini_file_keys_partial_pf. Qed.
Print Assumptions ini_file_keys_partial.

(** [C49] A file with carriage returns: the section is not found.  White space inside a
    key is removed.  A file name as value, or no value, aborts reading; the later key is not set. *)
Theorem ini_file_refuted :
  (exists content o o', content = txt "[EllipticForest]" ++ cr ++ eol ++ txt "n = 4" ++ cr ++ eol /\
     setFromFile (ini_files content) ini_name o = Ok o' /\ o (txt "n") = None /\ o' (txt "n") = None) /\
  (exists content o o', content = txt "[EllipticForest]" ++ eol ++ txt "my key = 4" ++ eol /\
     setFromFile (ini_files content) ini_name o = Ok o' /\ o' (txt "my key") = None /\ o' (txt "mykey") = Some (OInt 4)) /\
  (exists content o, content = txt "[EllipticForest]" ++ eol ++ txt "mesh = mesh.vtk" ++ eol ++ txt "n = 4" ++ eol /\
     setFromFile (ini_files content) ini_name o = Throw invalid_argument) /\
  (exists content o, content = txt "[EllipticForest]" ++ eol ++ txt "title =" ++ eol ++ txt "n = 4" ++ eol /\
     setFromFile (ini_files content) ini_name o = Throw invalid_argument).
Proof. exact @ini_file_refuted_pf. Qed.
Print Assumptions ini_file_refuted.

Example ini_example_case :
  lines_of ini_example ini_example_lines /\ ascii_text ini_example /\
  assigns ini_example_lines (txt "EllipticForest") 6 (txt "n") (txt "3") /\
  (exists o', setFromFile (ini_files ini_example) ini_name (fun _ => None) = Ok o' /\ o' (txt "n") = Some (OInt 3)).
Proof. exact @ini_example_case_expf. Qed.

(** [C50] For every sequence of operations on options or on a cache: a key exists afterwards exactly
    if it existed before, was set, or was read with operator[]; queries change nothing;
    the value of a key that was set is the one set last.  Missing: operator[]
    inserts keys that were never set. *)
Theorem map_operations_partial :
  (forall (ops : list (mapop optval)) (o : options) k,
     (optionExists (option_ops ops o) k = true <-> last_set o ops k <> None \/ read_in ops k) /\
     (forall v, last_set o ops k = Some v -> option_ops ops o k = Some v /\ fst (oget (option_ops ops o) k) = v)) /\
  (forall (T : Type) (d : T) (ops : list (mapop T)) (m : text -> option T) k,
     (contains (cache_ops d ops m) k = true <-> last_set m ops k <> None \/ read_in ops k) /\
     (forall v, last_set m ops k = Some v -> cache_ops d ops m k = Some v /\ fst (clookup d (cache_ops d ops m) k) = v)).
Proof. exact @map_operations_partial_pf. Qed.
Print Assumptions map_operations_partial.

(** [C50] If operator[] is only used to read keys that were set: a key exists exactly if it was set. *)
Theorem map_operations_guarded_partial : forall (T : Type) (d : T) (ops : list (mapop T)) (m : text -> option T),
  (forall before k after, ops = before ++ MGet k :: after -> last_set m before k <> None) ->
  forall k, contains (cache_ops d ops m) k = true <-> last_set m ops k <> None.
Proof. exact @map_operations_guarded_partial_pf. Qed.
Print Assumptions map_operations_guarded_partial.

(** [C50] Reading a key that was never set makes it exist. *)
Theorem map_operations_refuted :
  (exists (ops : list (mapop optval)) (o : options) k, last_set o ops k = None /\ optionExists (option_ops ops o) k = true) /\
  (exists (ops : list (mapop nat)) (m : text -> option nat) k, last_set m ops k = None /\ contains (cache_ops 0 ops m) k = true).
Proof. exact @map_operations_refuted_pf. Qed.
Print Assumptions map_operations_refuted.

(** A sequence with sets, reads of set keys and queries. *)
Example map_operations : exists ops : list (mapop nat),
  ops = [MSet (txt "a") 1; MGet (txt "a"); MSet (txt "a") 2; MQuery (txt "b")] /\
  (forall before k after, ops = before ++ MGet k :: after -> last_set (fun _ => None) before k <> None) /\
  cache_ops 0 ops (fun _ => None) (txt "a") = Some 2 /\ contains (cache_ops 0 ops (fun _ => None)) (txt "b") = false.
Proof. exact @map_operations_expf. Qed.

(** [C87] Parsing succeeds; for every key the last argument that gives it a value decides, and a key that no argument
    mentions keeps its value.  An option with one dash keeps its text.  For arguments with two
    dashes and other values see [command_line_last] and C48. *)
Theorem command_line_values : forall args o,
  Forall (fun a => plain_arg a \/ exists k x, arg_sets a k x) args ->
  exists o', parse args o = Ok o' /\
  forall k,
    (forall before a x after, args = before ++ a :: after -> arg_sets a k x ->
       (forall b y, In b after -> ~ arg_sets b k y) -> o' k = Some x) /\
    ((forall a x, In a args -> ~ arg_sets a k x) -> o' k = o k).
Proof. exact @command_line_values_pf. Qed.
Print Assumptions command_line_values.

(** An argument that is not an option, a repeated key, a text with one dash and a flag. *)
Example command_line_example : exists o',
  parse [txt "mesh.vtk"; txt "--n=4"; txt "-title=a=b.c"; txt "--n=16"; txt "--vtk"] (fun _ => None) = Ok o' /\
  arg_sets (txt "--n=16") (txt "n") (OInt 16) /\ arg_sets (txt "-title=a=b.c") (txt "title") (OStr (txt "a=b.c")) /\
  arg_sets (txt "--vtk") (txt "vtk") (OStr []) /\ plain_arg (txt "mesh.vtk") /\
  o' (txt "n") = Some (OInt 16) /\ o' (txt "title") = Some (OStr (txt "a=b.c")) /\ o' (txt "vtk") = Some (OStr []) /\ o' (txt "mesh.vtk") = None.
Proof. exact @command_line_example_expf. Qed.

(** [C88] For every command line that is parsed: reading a key as a truth value gives [b] exactly if the last argument that
    mentions the key is --key=true or --key=false with that value.  In all other cases (key never mentioned, key without
    value, one dash, another value) the read throws. *)
Theorem flag_read : forall args o k b, parse args (fun _ => None) = Ok o -> ~ In "="%char k ->
  (fst (get_bool o k) = Ok b <->
   exists before after, args = before ++ (txt "--" ++ k ++ txt "=" ++ word b) :: after /\ forall a, In a after -> ~ mentions a k) /\
  ((forall b', fst (get_bool o k) <> Ok b') -> fst (get_bool o k) = Throw bad_variant_access).
Proof. exact @flag_read_pf. Qed.
Print Assumptions flag_read.

(** [C88] So a switch that is given without a value, or not at all, is not read as a truth value. *)
Theorem flag_read_refuted :
  (exists args o, args = [txt "--homogeneous-rhs"] /\ parse args (fun _ => None) = Ok o /\
     fst (get_bool o (txt "homogeneous-rhs")) = Throw bad_variant_access) /\
  (exists o, parse [] (fun _ => None) = Ok o /\ fst (get_bool o (txt "cache-operators")) = Throw bad_variant_access) /\
  (exists o, parse [txt "--cache-operators=1"] (fun _ => None) = Ok o /\ fst (get_bool o (txt "cache-operators")) = Throw bad_variant_access).
Proof. exact @flag_read_refuted_pf. Qed.
Print Assumptions flag_read_refuted.

Example flag_read_example : exists o,
  parse [txt "--cache-operators=false"; txt "-x"; txt "--cache-operators=true"; txt "--n=4"] (fun _ => None) = Ok o /\
  fst (get_bool o (txt "cache-operators")) = Ok true.
Proof. exact @flag_read_example_expf. Qed.

(** [C87] Whatever the values: after a command line has been parsed, every key has the value that the last argument
    mentioning it gives when it is the only argument, and a key that no argument mentions keeps its value.  Keys with an
    equals sign are never set. *)
Theorem command_line_last : forall args o o' k, parse args o = Ok o' ->
  (forall before a after, args = before ++ a :: after -> ~ In "="%char k -> mentions a k -> (forall b, In b after -> ~ mentions b k) ->
     exists o1 x, parse [a] (fun _ => None) = Ok o1 /\ o1 k = Some x /\ o' k = Some x) /\
  (In "="%char k \/ (forall a, In a args -> ~ mentions a k) -> o' k = o k).
Proof. exact @command_line_last_pf. Qed.
Print Assumptions command_line_last.

(** [C87] The command line is parsed exactly if every argument is when given alone; otherwise the first bad argument decides
    how parsing ends. *)
Theorem command_line_ends : forall args o,
  (is_ok (parse args o) <-> Forall (fun a => is_ok (parse [a] (fun _ => None))) args) /\
  (forall e, parse args o = Throw e -> exists before a after, args = before ++ a :: after /\ is_ok (parse before o) /\
     parse [a] (fun _ => None) = Throw e) /\
  (parse args o = UB -> exists before a after, args = before ++ a :: after /\ is_ok (parse before o) /\
     parse [a] (fun _ => None) = UB).
Proof. exact @command_line_ends_pf. Qed.
Print Assumptions command_line_ends.

Example command_line_ends_example :
  (exists o', parse [txt "a"; txt "--t=abc"; txt "--n=4"; txt "-t=x"] (fun _ => None) = Ok o' /\ o' (txt "t") = Some (OStr (txt "x"))) /\
  parse [txt "--n=4"; txt "--f=mesh.vtk"; txt "--k="] (fun _ => None) = Throw invalid_argument.
Proof. exact @command_line_ends_example_expf. Qed.
