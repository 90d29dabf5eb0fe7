(** Model of src/Options.cpp, src/InputParser.cpp and src/DataCache.hpp.

    Simplifications: a std::map is a function from keys to values; doubles are rational
    numbers, so a decimal number is stored without rounding; the C locale is in use;
    a byte of a std::string is a signed char, and the functions isdigit and isspace are
    undefined for negative arguments other than EOF (-1). *)
From Coq Require Import Ascii String.
From Verif Require Import Base XmlModel.

(** ** Values (Options.hpp:27) *)

(** A double: a rational number, or a number whose value is not modelled (infinities,
    NaNs, hexadecimal numbers, numbers smaller than 2^-1022 in modulus). *)
Inductive dbl : Type := Fin (q : Qc) | Special.
Inductive optval : Type := OStr (s : text) | OBool (b : bool) | OInt (z : Z) | ODbl (d : dbl).

(** ** Characters *)
Definition ccode (c : ascii) : nat := nat_of_ascii c.
(** isdigit and isspace applied to a char: undefined for the bytes 128 to 254. *)
Definition negative_char (c : ascii) : bool := (128 <=? ccode c) && (ccode c <=? 254).
Definition digitb (c : ascii) : bool := (48 <=? ccode c) && (ccode c <=? 57).
Definition spaceb (c : ascii) : bool := (ccode c =? 32) || ((9 <=? ccode c) && (ccode c <=? 13)).
Definition c_isdigit (c : ascii) : res bool := if negative_char c then UB else Ok (digitb c).
Definition c_isspace (c : ascii) : res bool := if negative_char c then UB else Ok (spaceb c).

Definition text_eqb (a b : text) : bool := if list_eq_dec ascii_dec a b then true else false.

(** ** Numbers *)
Definition digit_value (c : ascii) : Z := (Z.of_nat (ccode c) - 48)%Z.
(** The number written with the digits. *)
Definition digits_value (s : text) : Z := fold_left (fun a c => (10 * a + digit_value c)%Z) s 0%Z.

(** The longest prefix of characters with the property, and the rest. *)
Fixpoint span (p : ascii -> bool) (s : text) : text * text :=
  match s with
  | c :: s' => if p c then let '(a, b) := span p s' in (c :: a, b) else ([], s)
  | [] => ([], [])
  end.
Definition drop (p : ascii -> bool) (s : text) : text := snd (span p s).

Definition take_sign (s : text) : bool * text :=
  match s with
  | c :: s' => if Ascii.eqb c "-" then (true, s') else if Ascii.eqb c "+" then (false, s') else (false, s)
  | [] => (false, s)
  end.

(** std::stoi: strtol with base 10 on the text, exceptions by the result. *)
Definition stoi (s : text) : res Z :=
  let '(neg, s) := take_sign (drop spaceb s) in
  let '(ds, _) := span digitb s in
  match ds with
  | [] => Throw invalid_argument
  | _ => let v := if neg then (- digits_value ds)%Z else digits_value ds in
         if (v <? - 2147483648)%Z || (2147483647 <? v)%Z then Throw out_of_range else Ok v
  end.

Definition lower (c : ascii) : ascii :=
  if (65 <=? ccode c) && (ccode c <=? 90) then ascii_of_nat (ccode c + 32) else c.
Definition starts_with (p s : text) : bool := text_eqb (map lower (firstn (List.length p) s)) p.
Definition hexb (c : ascii) : bool := digitb c || ((97 <=? ccode (lower c)) && (ccode (lower c) <=? 102)).
(** Infinities, NaNs, hexadecimal numbers. *)
Definition special_form (s : text) : bool :=
  starts_with (txt "inf") s || starts_with (txt "nan") s ||
  (starts_with (txt "0x") s &&
   match skipn 2 s with
   | c :: s' => hexb c || (Ascii.eqb c "." && match s' with c' :: _ => hexb c' | [] => false end)
   | [] => false
   end).

(** Digits, full stop, digits; what follows. *)
Definition take_decimal (s : text) : text * text * text :=
  let '(i, s1) := span digitb s in
  match s1 with
  | c :: s2 => if Ascii.eqb c "." then let '(f, s3) := span digitb s2 in (i, f, s3) else (i, [], s1)
  | [] => (i, [], [])
  end.
(** An exponent, if there is a complete one. *)
Definition take_exponent (s : text) : Z :=
  match s with
  | c :: s' => if Ascii.eqb (lower c) "e" then
                 let '(neg, s2) := take_sign s' in
                 let '(ds, _) := span digitb s2 in
                 (if neg then - digits_value ds else digits_value ds)%Z
               else 0%Z
  | [] => 0%Z
  end.
Definition ten_power (e : Z) : Qc := Q2Qc (Qpower (10 # 1) e).
(** The least number that is rounded to infinity: 2^1024 - 2^970. *)
Definition double_limit : Qc := Qc_of_Z (2 ^ 1024 - 2 ^ 970)%Z.
Definition double_tiny : Qc := Q2Qc (Qpower (2 # 1) (-1022)).
Definition Qclt_b (a b : Qc) : bool := if Qclt_le_dec a b then true else false.

(** std::stod: strtod on the text, exceptions by the result. *)
Definition stod (s : text) : res dbl :=
  let '(neg, s) := take_sign (drop spaceb s) in
  if special_form s then Ok Special else
  let '(i, f, rest) := take_decimal s in
  match i ++ f with
  | [] => Throw invalid_argument
  | ds => let a := (Qc_of_Z (digits_value ds) * ten_power (take_exponent rest - Z.of_nat (List.length f)))%Qc in
          let v := if neg then (- a)%Qc else a in
          if Qclt_b a double_limit then
            if negb (digits_value ds =? 0)%Z && Qclt_b a double_tiny then Ok Special else Ok (Fin v)
          else Throw out_of_range
  end.

(** Options.cpp:106-108. *)
Definition isDouble (s : text) : bool := existsb (Ascii.eqb ".") s.
(** Options.cpp:110-115. *)
Fixpoint isInt (s : text) : res bool :=
  match s with
  | [] => Ok true
  | c :: s' => b <- c_isdigit c ;; if b then isInt s' else Ok false
  end.

(** Options.cpp:90-104; [return {}] is the empty string, the first alternative. *)
Definition checkValue (v : text) : res optval :=
  if text_eqb v (txt "true") then Ok (OBool true)
  else if text_eqb v (txt "false") then Ok (OBool false)
  else if isDouble v then d <- stod v ;; Ok (ODbl d)
  else b <- isInt v ;; if b then z <- stoi v ;; Ok (OInt z) else Ok (OStr []).

(** ** The map (Options.hpp:33) *)
Definition options := text -> option optval.
Definition oset (o : options) (k : text) (v : optval) : options := fun k' => if text_eqb k k' then Some v else o k'.

(** Options.cpp:12-14 operator[]: the value referred to, and the map afterwards. *)
Definition oget (o : options) (k : text) : optval * options :=
  match o k with Some v => (v, o) | None => (OStr [], oset o k (OStr [])) end.
(** Options.cpp:16-18; assignment to options[key] is the same. *)
Definition setOption (o : options) (k : text) (v : optval) : options := oset o k v.
(** Options.cpp:30-32. *)
Definition optionExists (o : options) (k : text) : bool := match o k with Some _ => true | None => false end.

(** ** INI files *)

(** std::getline until the end of the file; [acc] is the line so far, reversed. *)
Fixpoint get_lines (acc s : text) : list text :=
  match s with
  | [] => match acc with [] => [] | _ => [rev acc] end
  | c :: s' => if Ascii.eqb c newline then rev acc :: get_lines [] s' else get_lines (c :: acc) s'
  end.
Definition file_lines (s : text) : list text := get_lines [] s.

Definition blank (c : ascii) : bool := (ccode c =? 32) || (ccode c =? 9).
(** Options.cpp:50-51: spaces and tabs at both ends are erased. *)
Definition trim_line (l : text) : text := rev (drop blank (rev (drop blank l))).
(** Options.cpp:86-88. *)
Fixpoint stripWhitespace (s : text) : res text :=
  match s with
  | [] => Ok []
  | c :: s' => b <- c_isspace c ;; t <- stripWhitespace s' ;; Ok (if b then t else c :: t)
  end.
(** The text before and after the first occurrence. *)
Definition split_at (x : ascii) (s : text) : option (text * text) :=
  let '(a, b) := span (fun c => negb (Ascii.eqb c x)) s in
  match b with _ :: b' => Some (a, b') | [] => None end.

(** Options.cpp:59-60: the name of a section, if the line is a header. *)
Definition section_header (l : text) : option text :=
  match l with
  | c :: _ => if Ascii.eqb c "[" && Ascii.eqb (last l c) "]" then Some (firstn (List.length l - 2) (skipn 1 l)) else None
  | [] => None
  end.

(** Options.cpp:48-81, one line; the state: the flag read_section and the map. *)
Definition read_line (section : text) (st : bool * options) (line : text) : res (bool * options) :=
  let '(read_section, o) := st in
  let l := trim_line line in
  match l with
  | [] => Ok st
  | c :: _ =>
      if Ascii.eqb c ";" then Ok st else
      match section_header l with
      | Some name => Ok (text_eqb name section, o)
      | None =>
          if read_section then
            match split_at "=" l with
            | None => Ok st
            | Some (k, v) =>
                k <- stripWhitespace k ;; v <- stripWhitespace v ;;
                x <- checkValue v ;; Ok (read_section, oset o k x)
            end
          else Ok st
      end
  end.
(** Options.cpp:43-84. *)
Definition readINIFile (content section : text) (o : options) : res options :=
  st <- foldM (read_line section) (file_lines content) (false, o) ;; Ok (snd st).

(** Options.cpp:20-28; [files] gives the contents of files that can be opened. *)
Definition setFromFile (files : text -> option text) (filename : text) (o : options) : res options :=
  if List.length filename <? 3 then Throw out_of_range
  else if text_eqb (skipn (List.length filename - 3) filename) (txt "ini") then
    readINIFile (match files filename with Some c => c | None => [] end) (txt "EllipticForest") o
  else Throw invalid_argument.

(** ** Command line *)

(** InputParser.cpp:10-37, one argument.  [options[option] = ""] stores a string: since
    C++20 a pointer is not converted to bool here. *)
Definition parse_arg (o : options) (arg : text) : res options :=
  match arg with
  | c :: rest =>
      if Ascii.eqb c "-" then
        match rest with
        | c2 :: option =>
            if Ascii.eqb c2 "-" then
              match split_at "=" option with
              | Some (k, v) => x <- checkValue v ;; Ok (oset o k x)
              | None => Ok (oset o option (OStr []))
              end
            else match split_at "=" rest with
                 | Some (k, v) => Ok (oset o k (OStr v))
                 | None => Ok (oset o rest (OStr []))
                 end
        | [] => Ok (oset o [] (OStr []))
        end
      else Ok o
  | [] => Ok o
  end.
Definition parse (args : list text) (o : options) : res options := foldM parse_arg args o.

(** HPSAlgorithm.hpp:134, 532, 587, 1202: [std::get<bool>(app.options[key])]; the value, and the map afterwards. *)
Definition get_bool (o : options) (k : text) : res bool * options :=
  let '(v, o') := oget o k in
  (match v with OBool b => Ok b | _ => Throw bad_variant_access end, o').

(** ** Cache (DataCache.hpp:38-51) *)
Section Cache.
Context {T : Type} (default : T).
Definition cache := text -> option T.
Definition cput (m : cache) (k : text) (v : T) : cache := fun k' => if text_eqb k k' then Some v else m k'.
(** operator[]: the value referred to, and the map afterwards. *)
Definition clookup (m : cache) (k : text) : T * cache :=
  match m k with Some v => (v, m) | None => (default, cput m k default) end.
(** cache[key] = value. *)
Definition cstore (m : cache) (k : text) (v : T) : cache := cput m k v.
Definition contains (m : cache) (k : text) : bool := match m k with Some _ => true | None => false end.
End Cache.
