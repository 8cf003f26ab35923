(** * Reading the parameter file

    Models /repo/src/utils/config: inih/ini.cpp (ini_parse, ini_parse_buffer),
    inih/INIReader.cpp and ConfigMap.cpp.  Text is a list of characters; a C
    string is the text before its first NUL.  Simplifications: characters above
    127 are never white space (the C locale); [std::istringstream] over
    [pubsetbuf] reads the given buffer (libstdc++); [std::map] is the list of
    assignments, newest first; files of 2 GB and more are not considered. *)
From Coq Require Import Ascii String ZArith NArith List Bool Lia.
From Coq Require Import Floats.SpecFloat.
Import ListNotations.
Local Open Scope nat_scope.
Local Open Scope bool_scope.
Local Notation length := List.length.

Definition text := list ascii.
Definition lit (s : string) : text := list_ascii_of_string s.

Definition nul : ascii := ascii_of_nat 0.
Definition newline : ascii := ascii_of_nat 10.
Definition semicolon : ascii := ";"%char.

(** [isspace] and [tolower] of the C locale *)
Definition isspace (c : ascii) : bool :=
  let n := nat_of_ascii c in ((9 <=? n) && (n <=? 13)) || (n =? 32).
Definition tolower (c : ascii) : ascii :=
  let n := nat_of_ascii c in if (65 <=? n) && (n <=? 90) then ascii_of_nat (n + 32) else c.

(** The C string stored in a character array. *)
Fixpoint cstr (l : text) : text :=
  match l with
  | [] => []
  | c :: t => if Ascii.eqb c nul then [] else c :: cstr t
  end.

(** ini.cpp:25-33 [rstrip]: drops trailing white space. *)
Fixpoint rstrip (l : text) : text :=
  match l with
  | [] => []
  | c :: t => match rstrip t with
              | [] => if isspace c then [] else [c]
              | r => c :: r
              end
  end.

(** ini.cpp:35-42 [lskip] *)
Fixpoint lskip (l : text) : text :=
  match l with
  | c :: t => if isspace c then lskip t else l
  | [] => []
  end.

(** ini.cpp:44-57 [find_char_or_comment]: the text before the place found and the
    text from there on.  [None] stands for the character '\0', which is never met. *)
Definition is_char (c : option ascii) (x : ascii) : bool :=
  match c with Some y => Ascii.eqb x y | None => false end.
Fixpoint find_from (was_whitespace : bool) (c : option ascii) (l : text) : text * text :=
  match l with
  | [] => ([], [])
  | x :: t =>
      if is_char c x || (was_whitespace && Ascii.eqb x semicolon) then ([], l)
      else let (a, b) := find_from (isspace x) c t in (x :: a, b)
  end.
Definition find_char_or_comment := find_from false.

(** ini.cpp:59-66 [strncpy0] *)
Definition strncpy0 (src : text) (size : nat) : text := firstn (size - 1) src.

(** ini.cpp:21-23 *)
Definition MAX_LINE := 200.
Definition MAX_SECTION := 50.
Definition MAX_NAME := 50.

(** INIReader.cpp:99-108 [makeKey] *)
Definition make_key (section name : text) : text := map tolower (section ++ ["."%char] ++ name).

(** What the parser has gathered: [i_values] is INIReader::_values, [i_error] the
    return value of the parser so far (0: none). *)
Record ini := mkini {
  i_section : text; i_prev : text; i_values : list (text * text); i_lineno : nat; i_error : nat
}.

Definition ini_start : ini := mkini [] [] [] 0 0.

(** INIReader.cpp:112-118 [valueHandler] *)
Definition handler (section name value : text) (vals : list (text * text)) : list (text * text) :=
  (make_key section name, value) :: vals.

Definition first_error (error lineno : nat) : nat := if error =? 0 then lineno else error.

(** ini.cpp:92-150 and 191-255, the body of the two loops; [line] is a C string. *)
Definition parse_line (st : ini) (line : text) : ini :=
  let lineno := S (i_lineno st) in
  let line := rstrip line in
  let start := lskip line in
  let indented := negb (length start =? length line) in
  let section := i_section st in
  let prev_name := i_prev st in
  let vals := i_values st in
  let error := i_error st in
  match start with
  | [] => mkini section prev_name vals lineno error
  | c0 :: rest =>
    if (match prev_name with [] => false | _ => true end) && indented then
      mkini section prev_name (handler section prev_name start vals) lineno error
    else if Ascii.eqb c0 ";" || Ascii.eqb c0 "#" then
      mkini section prev_name vals lineno error
    else if Ascii.eqb c0 "[" then
      match find_char_or_comment (Some "]"%char) rest with
      | (sec, c :: _) =>
          if Ascii.eqb c "]" then mkini (strncpy0 sec MAX_SECTION) [] vals lineno error
          else mkini section prev_name vals lineno (first_error error lineno)
      | (_, []) => mkini section prev_name vals lineno (first_error error lineno)
      end
    else
      match find_char_or_comment (Some "="%char) start with
      | (name, c :: value) =>
          if Ascii.eqb c "=" then
            let name := rstrip name in
            let value := lskip value in
            let value := fst (find_char_or_comment None value) in
            let value := rstrip value in
            mkini section (strncpy0 name MAX_NAME) (handler section name value vals) lineno error
          else mkini section prev_name vals lineno (first_error error lineno)
      | (_, []) => mkini section prev_name vals lineno (first_error error lineno)
      end
  end.

(** [fgets(line, sizeof(line), file)] until it returns NULL: at most 199 characters,
    stopping after a newline.  [room] characters may still be stored, [acc] are
    those already stored, last first. *)
Fixpoint chunks (room : nat) (acc : text) (t : text) : list text :=
  match t with
  | [] => match acc with [] => [] | _ => [rev acc] end
  | c :: t' =>
      if Ascii.eqb c newline || (room <=? 1) then rev (c :: acc) :: chunks (MAX_LINE - 1) [] t'
      else chunks (room - 1) (c :: acc) t'
  end.
Definition file_lines (t : text) : list text := chunks (MAX_LINE - 1) [] t.

(** [std::getline] until it fails: newlines are removed. *)
Fixpoint getlines (acc : text) (t : text) : list text :=
  match t with
  | [] => match acc with [] => [] | _ => [rev acc] end
  | c :: t' => if Ascii.eqb c newline then rev acc :: getlines [] t' else getlines (c :: acc) t'
  end.
Definition buffer_lines (t : text) : list text := getlines [] t.

(** ini.cpp:72-158 [ini_parse] on a file with these contents *)
Definition ini_parse (t : text) : ini := fold_left parse_line (map cstr (file_lines t)) ini_start.
(** ini.cpp:163-262 [ini_parse_buffer] ([strcpy] at line 196 cuts at the first NUL) *)
Definition ini_parse_buffer (t : text) : ini := fold_left parse_line (map cstr (buffer_lines t)) ini_start.

(** ** The configuration map *)
Definition cmap := list (text * text).

Definition text_eqb (a b : text) : bool := if list_eq_dec ascii_dec a b then true else false.

Fixpoint find_key (k : text) (m : cmap) : option text :=
  match m with
  | [] => None
  | (k', v) :: m' => if text_eqb k k' then Some v else find_key k m'
  end.

(** INIReader.cpp:41-47 [getString], 51-56 [setString] *)
Definition get_string (m : cmap) (section name default : text) : text :=
  match find_key (make_key section name) m with Some v => v | None => default end.
Definition set_string (m : cmap) (section name value : text) : cmap := (make_key section name, value) :: m.

(** [broadcast_parameters], ConfigMap.cpp:94-171: serial build; distributed build at
    process [rank].  [None]: the file cannot be opened.  In the distributed build
    process 0 reads the file and every process parses the broadcast buffer. *)
Definition serial_parameters (file : option text) : cmap :=
  match file with Some t => i_values (ini_parse t) | None => [] end.

Definition read_on (rank : nat) (file : option text) : option text :=
  if rank =? 0 then file else None.
(** MPI_Bcast from process 0: everyone gets the value process 0 had. *)
Definition bcast {A} (at_rank : nat -> A) (rank : nat) : A := at_rank 0.

Definition distributed_parameters (file : option text) (rank : nat) : cmap :=
  let buffer_size rank := match read_on rank file with Some t => length t | None => 0 end in
  let buffer rank := match read_on rank file with Some t => t | None => [] end in
  if 0 <? bcast buffer_size rank then i_values (ini_parse_buffer (bcast buffer rank))
  else i_values (ini_parse_buffer []).

(** ** Numbers *)
Local Open Scope Z_scope.

Definition code (c : ascii) : Z := Z.of_nat (nat_of_ascii c).
Definition digit (c : ascii) : option Z :=
  let n := code c in
  if (48 <=? n) && (n <=? 57) then Some (n - 48)
  else if (65 <=? n) && (n <=? 90) then Some (n - 55)
  else if (97 <=? n) && (n <=? 122) then Some (n - 87)
  else None.
(** The digits of base [b] at the start of the text: number of them, their value
    added to [acc], the rest of the text. *)
Fixpoint digits (b : Z) (n acc : Z) (l : text) : Z * Z * text :=
  match l with
  | c :: t => match digit c with
              | Some d => if d <? b then digits b (n + 1) (acc * b + d) t else (n, acc, l)
              | None => (n, acc, l)
              end
  | [] => (n, acc, l)
  end.

(** Optional sign. *)
Definition sign (l : text) : bool * text :=
  match l with
  | c :: t => if Ascii.eqb c "-" then (true, t) else if Ascii.eqb c "+" then (false, t) else (false, l)
  | [] => (false, l)
  end.
(** 0x followed by a hexadecimal digit *)
Definition hex_prefix (l : text) : option text :=
  match l with
  | z :: x :: ((h :: _) as t) =>
      if Ascii.eqb z "0" && (Ascii.eqb x "x" || Ascii.eqb x "X") then
        match digit h with Some d => if d <? 16 then Some t else None | None => None end
      else None
  | _ => None
  end.

Definition LONG_MAX : Z := 2 ^ 63 - 1.
Definition LONG_MIN : Z := - 2 ^ 63.

(** [strtol(value, &end, 0)]: [None] when nothing is read (end = value). *)
Definition strtol0 (l : text) : option Z :=
  let (neg, l) := sign (lskip l) in
  let '(n, v, _) :=
    match hex_prefix l with
    | Some t => digits 16 0 0 t
    | None => match l with
              | c :: _ => if Ascii.eqb c "0" then digits 8 0 0 l else digits 10 0 0 l
              | [] => digits 10 0 0 l
              end
    end in
  if n =? 0 then None
  else let v := if neg then - v else v in Some (Z.max LONG_MIN (Z.min LONG_MAX v)).

(** INIReader.cpp:60-69 [getInteger], 73-80 [setInteger] *)
Definition get_integer (m : cmap) (section name : text) (default : Z) : Z :=
  match strtol0 (cstr (get_string m section name [])) with Some n => n | None => default end.

(** [ss << value] for a long *)
Definition dchar (d : Z) : ascii := ascii_of_nat (Z.to_nat (48 + d)).
Fixpoint dec (fuel : nat) (n : Z) (acc : text) : text :=
  match fuel with
  | O => acc
  | S f => let acc := dchar (n mod 10) :: acc in if n <? 10 then acc else dec f (n / 10) acc
  end.
Definition show_long (n : Z) : text :=
  if n <? 0 then "-"%char :: dec 20 (- n) [] else dec 20 n [].
Definition set_integer (m : cmap) (section name : text) (n : Z) : cmap :=
  set_string m section name (show_long n).

(** ConfigMap.cpp:58-76 [getBool], 80-89 [setBool] *)
Definition get_bool (m : cmap) (section name : text) (default : bool) : bool :=
  let v := get_string m section name [] in
  let val := default in
  let val := if text_eqb v (lit "1") || text_eqb v (lit "yes") || text_eqb v (lit "true") || text_eqb v (lit "on")
             then true else val in
  let val := if text_eqb v (lit "0") || text_eqb v (lit "no") || text_eqb v (lit "false") || text_eqb v (lit "off")
             then false else val in
  match v with [] => default | _ => val end.
Definition set_bool (m : cmap) (section name : text) (b : bool) : cmap :=
  set_string m section name (if b then lit "true" else lit "false").

(** *** float *)
Definition b32 := spec_float.

(** Correctly rounded (to nearest even) [num/den], positive integers. *)
Definition round32 (neg : bool) (num den : positive) : b32 :=
  let '(q, e, l) := SFdiv_core_binary 24 128 (Zpos num) 0 (Zpos den) 0 in
  binary_round_aux 24 128 neg q e l.
Definition ratio32 (neg : bool) (num den : Z) : b32 :=
  match num, den with
  | Zpos n, Zpos d => round32 neg n d
  | _, _ => S754_zero neg
  end.

(** Does the text start with this word, in any letter case? *)
Fixpoint starts (w l : text) : bool :=
  match w, l with
  | [], _ => true
  | a :: w', b :: l' => Ascii.eqb a (tolower b) && starts w' l'
  | _, [] => false
  end.

(** An exponent: the letter, an optional sign, at least one digit; otherwise 0. *)
Definition exponent (letter : ascii) (l : text) : Z :=
  match l with
  | c :: t =>
      if Ascii.eqb (tolower c) letter then
        let (neg, t) := sign t in
        let '(n, v, _) := digits 10 0 0 t in
        if n =? 0 then 0 else if neg then - v else v
      else 0
  | [] => 0
  end.

(** Digits, an optional point and more digits: count, value as an integer, count
    after the point, rest. *)
Definition mantissa (b : Z) (l : text) : Z * Z * Z * text :=
  let '(n1, v1, r1) := digits b 0 0 l in
  match r1 with
  | c :: t => if Ascii.eqb c "." then
                let '(n2, v2, r2) := digits b 0 v1 t in
                if n1 + n2 =? 0 then (0, 0, 0, l) else (n1 + n2, v2, n2, r2)
              else (n1, v1, 0, r1)
  | [] => (n1, v1, 0, r1)
  end.

(** [strtof(value, &end)]: [None] when nothing is read. *)
Definition scale (b : Z) (e : Z) (v : Z) : Z * Z := if 0 <=? e then (v * b ^ e, 1) else (v, b ^ (- e)).
Definition strtof (l : text) : option b32 :=
  let (neg, l) := sign (lskip l) in
  if starts (lit "inf") l then Some (S754_infinity neg)
  else if starts (lit "nan") l then Some S754_nan
  else match hex_prefix l with
  | Some t =>
      let '(n, v, nf, r) := mantissa 16 t in
      let (num, den) := scale 2 (exponent "p" r - 4 * nf) v in Some (ratio32 neg num den)
  | None =>
      let '(n, v, nf, r) := mantissa 10 l in
      if n =? 0 then None
      else let (num, den) := scale 10 (exponent "e" r - nf) v in Some (ratio32 neg num den)
  end.

(** ConfigMap.cpp:35-44 [getFloat] *)
Definition get_float (m : cmap) (section name : text) (default : b32) : b32 :=
  match strtof (cstr (get_string m section name [])) with Some x => x | None => default end.

(** [ss << value] for a float: "%g" with 6 significant digits. *)
Definition round_even (num den : Z) : Z :=
  let q := num / den in let r := num mod den in
  if 2 * r <? den then q else if den <? 2 * r then q + 1 else if Z.even q then q else q + 1.
(** Largest X in [lo, lo + n] with 10^X <= num/den. *)
Definition le_pow10 (X num den : Z) : bool := if 0 <=? X then den * 10 ^ X <=? num else den <=? num * 10 ^ (- X).
Fixpoint log10 (n : nat) (X num den : Z) : Z :=
  match n with
  | O => X
  | S n' => if le_pow10 X num den then X else log10 n' (X - 1) num den
  end.
Fixpoint strip_zeros (l : text) : text :=   (* on reversed text *)
  match l with c :: t => if Ascii.eqb c "0" then strip_zeros t else l | [] => [] end.
Definition show_two (n : Z) : text := if n <? 10 then dchar 0 :: dec 20 n [] else dec 20 n [].
Definition zeros (n : Z) : text := repeat "0"%char (Z.to_nat n).
Definition show_pos (num den : Z) : text :=
  let X := log10 100 39 num den in
  let d := if 0 <=? 5 - X then round_even (num * 10 ^ (5 - X)) den else round_even num (den * 10 ^ (X - 5)) in
  let (d, X) := if d =? 1000000 then (100000, X + 1) else (d, X) in
  let ds := dec 20 d [] in                          (* six digits *)
  let point a b := match strip_zeros (rev b) with [] => a | r => a ++ ["."%char] ++ rev r end in
  if (X <? -4) || (6 <=? X) then
    point (firstn 1 ds) (skipn 1 ds) ++ ["e"%char; if X <? 0 then "-"%char else "+"%char] ++ show_two (Z.abs X)
  else if X <? 0 then point (lit "0") (zeros (- X - 1) ++ ds)
  else point (firstn (Z.to_nat (X + 1)) ds) (skipn (Z.to_nat (X + 1)) ds).
Definition show_float (x : b32) : text :=
  match x with
  | S754_zero s => if s then lit "-0" else lit "0"
  | S754_infinity s => if s then lit "-inf" else lit "inf"
  | S754_nan => lit "nan"
  | S754_finite s m e =>
      (if s then lit "-" else []) ++
      (if 0 <=? e then show_pos (Zpos m * 2 ^ e) 1 else show_pos (Zpos m) (2 ^ (- e)))
  end.
(** ConfigMap.cpp:48-56 [setFloat] *)
Definition set_float (m : cmap) (section name : text) (x : b32) : cmap :=
  set_string m section name (show_float x).
