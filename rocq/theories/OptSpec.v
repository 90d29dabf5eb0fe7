(** Specification of option values and INI files. *)
From Coq Require Import Ascii String.
From Verif Require Import Base XmlModel OptModel.

(** ** Numbers as text *)

(** [c] is the digit [d]. *)
Definition is_digit (c : ascii) (d : Z) : Prop := (0 <= d <= 9)%Z /\ c = ascii_of_nat (48 + Z.to_nat d).
(** One or more digits and the number they write. *)
Inductive numeral : text -> Z -> Prop :=
| numeral_one c d : is_digit c d -> numeral [c] d
| numeral_more s n c d : numeral s n -> is_digit c d -> numeral (s ++ [c]) (10 * n + d).
(** No digits, or a numeral. *)
Definition numeral0 (s : text) (n : Z) : Prop := (s = [] /\ n = 0%Z) \/ numeral s n.

Inductive sign : text -> Z -> Prop :=
| sign_none : sign [] 1 | sign_plus : sign (txt "+") 1 | sign_minus : sign (txt "-") (-1).

(** Integers of type int. *)
Definition integer (s : text) (z : Z) : Prop :=
  exists a sg b n, sign a sg /\ numeral b n /\ s = a ++ b /\ z = (sg * n)%Z /\ (-2147483648 <= z <= 2147483647)%Z.

(** An exponent: nothing, or the letter e, a sign and digits. *)
Inductive exponent : text -> Z -> Prop :=
| exp_none : exponent [] 0
| exp_some c a sg b n : c = "e"%char \/ c = "E"%char -> sign a sg -> numeral b n -> exponent (c :: a ++ b) (sg * n).
Definition power_of_ten (e : Z) : Qc := if (0 <=? e)%Z then Qc_of_Z (10 ^ e) else (/ Qc_of_Z (10 ^ (- e)))%Qc.

(** Decimal numbers: sign, digits, full stop, digits, at least one digit, exponent.  The value is
    the integer of all digits divided by a power of ten, times the power of ten of the exponent.  The number
    is in the range of normal doubles. *)
Definition decimal_number (s : text) (q : Qc) : Prop :=
  exists a sg i m f n x e, sign a sg /\ numeral0 i m /\ numeral0 f n /\ i ++ f <> [] /\ exponent x e /\
  s = a ++ i ++ txt "." ++ f ++ x /\
  (let t := Qc_of_Z (10 ^ Z.of_nat (List.length f)) in
   let p := (Qc_of_Z m + Qc_of_Z n / t) * power_of_ten e in
   q = Qc_of_Z sg * p /\
   (p < Qc_of_Z (2 ^ 1024 - 2 ^ 970) /\ (p = 0 \/ 1 / Qc_of_Z (2 ^ 1022) <= p)))%Qc.

(** The natural type and value of a text. *)
Inductive natural_type : text -> optval -> Prop :=
| nt_true : natural_type (txt "true") (OBool true)
| nt_false : natural_type (txt "false") (OBool false)
| nt_int s z : integer s z -> natural_type s (OInt z)
| nt_double s q : decimal_number s q -> natural_type s (ODbl (Fin q))
| nt_text s : s <> txt "true" -> s <> txt "false" -> (forall z, ~ integer s z) -> (forall q, ~ decimal_number s q) ->
    natural_type s (OStr s).

(** ** INI files *)

(** The lines of a text: the content up to each line feed, and what follows the last one
    if it is not empty. *)
Inductive lines_of : text -> list text -> Prop :=
| lines_none : lines_of [] []
| lines_last l : l <> [] -> ~ In newline l -> lines_of l [l]
| lines_next l s ls : ~ In newline l -> lines_of s ls -> lines_of (l ++ newline :: s) (l :: ls).

Definition is_blank (c : ascii) : Prop := c = " "%char \/ c = "009"%char.
(** [t] is [l] without spaces and tabs at both ends. *)
Definition trimmed_line (l t : text) : Prop :=
  exists a b, l = a ++ t ++ b /\ Forall is_blank a /\ Forall is_blank b /\
  (forall c t', t = c :: t' -> ~ is_blank c) /\ (forall c t', t = t' ++ [c] -> ~ is_blank c).

(** White space: tab, line feed, vertical tab, form feed, carriage return, space. *)
Definition white (c : ascii) : Prop := In (nat_of_ascii c) [9; 10; 11; 12; 13; 32].
(** [t] is [s] without white space. *)
Inductive without_space : text -> text -> Prop :=
| ws_nil : without_space [] []
| ws_skip c s t : white c -> without_space s t -> without_space (c :: s) t
| ws_keep c s t : ~ white c -> without_space s t -> without_space (c :: s) (c :: t).

(** The (trimmed) line names a section. *)
Definition names_section (l name : text) : Prop := l = txt "[" ++ name ++ txt "]".
Definition header_line (l : text) : Prop := exists t name, trimmed_line l t /\ names_section t name.
(** Line number [i] belongs to the section: the last header before it names it. *)
Definition in_section (ls : list text) (name : text) (i : nat) : Prop :=
  exists j lj t, j < i /\ nth_error ls j = Some lj /\ trimmed_line lj t /\ names_section t name /\
  forall k lk, j < k -> k < i -> nth_error ls k = Some lk -> ~ header_line lk.
(** Line number [i] is an assignment of the text [v] to the key [k] in the section: not blank, not
    a comment, not a header, with an equals sign; key and value are the texts before and
    after the first one, without white space. *)
Definition assigns (ls : list text) (name : text) (i : nat) (k v : text) : Prop :=
  exists l t a b, nth_error ls i = Some l /\ trimmed_line l t /\ (forall t', t <> ";"%char :: t') /\ ~ header_line l /\
  in_section ls name i /\ t = a ++ txt "=" ++ b /\ ~ In "="%char a /\ without_space a k /\ without_space b v.

(** Bytes on which isdigit and isspace are defined: 7-bit characters, and 255, which is EOF as a signed char. *)
Definition ctype_defined (c : ascii) : Prop := nat_of_ascii c < 128 \/ nat_of_ascii c = 255.
Definition ascii_text (s : text) : Prop := Forall ctype_defined s.

(** ** Values that are converted *)

(** The texts whose conversion agrees with [natural_type]: truth values, integers without a
    sign, decimal numbers with a full stop. *)
Inductive stored_as : text -> optval -> Prop :=
| sa_true : stored_as (txt "true") (OBool true)
| sa_false : stored_as (txt "false") (OBool false)
| sa_int s n : numeral s n -> (n <= 2147483647)%Z -> stored_as s (OInt n)
| sa_double s q : decimal_number s q -> stored_as s (ODbl (Fin q)).

(** ** Sequences of operations on a map *)
Section Ops.
Context {V : Type}.
Inductive mapop : Type := MSet (k : text) (v : V) | MGet (k : text) | MQuery (k : text).
(** The value last stored under the key; [prior] is the map at the beginning. *)
Definition last_set (prior : text -> option V) (ops : list mapop) : text -> option V :=
  fold_left (fun m p => match p with MSet k v => fun x => if list_eq_dec ascii_dec x k then Some v else m x | _ => m end) ops prior.
(** The key is read by operator[] somewhere. *)
Definition read_in (ops : list mapop) (k : text) : Prop := In (MGet k) ops.
End Ops.
Arguments mapop : clear implicits.

(** ** Command line *)

(** The argument gives the key the value: two dashes and a value that is converted, one dash and a
    text that is kept, or no value, which gives the empty text.  The key has no equals sign; after one dash it does not
    begin with a dash. *)
Inductive arg_sets : text -> text -> optval -> Prop :=
| as_long k v x : ~ In "="%char k -> stored_as v x -> arg_sets (txt "--" ++ k ++ txt "=" ++ v) k x
| as_long_flag k : ~ In "="%char k -> arg_sets (txt "--" ++ k) k (OStr [])
| as_short k v : ~ In "="%char k -> (forall k', k <> "-"%char :: k') -> arg_sets (txt "-" ++ k ++ txt "=" ++ v) k (OStr v)
| as_short_flag k : ~ In "="%char k -> (forall k', k <> "-"%char :: k') -> arg_sets (txt "-" ++ k) k (OStr []).
(** Arguments that are not options: they do not begin with a dash. *)
Definition plain_arg (a : text) : Prop := forall a', a <> "-"%char :: a'.
(** The argument is an option with the key, with or without a value. *)
Inductive mentions : text -> text -> Prop :=
| me_long k v : mentions (txt "--" ++ k ++ txt "=" ++ v) k
| me_long_flag k : mentions (txt "--" ++ k) k
| me_short k v : (forall k', k <> "-"%char :: k') -> mentions (txt "-" ++ k ++ txt "=" ++ v) k
| me_short_flag k : (forall k', k <> "-"%char :: k') -> mentions (txt "-" ++ k) k.
Definition word (b : bool) : text := if b then txt "true" else txt "false".
