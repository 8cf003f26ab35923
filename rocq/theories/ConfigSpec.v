(** * What a parameter file means

    Written without the parser's functions: each line is described by the ways it
    can be written down, a file by its lines from top to bottom. *)
From Coq Require Import Ascii String ZArith List Bool.
Import ListNotations.
Local Open Scope nat_scope.
Local Notation length := List.length.

Definition chars := list ascii.

Definition white (c : ascii) : Prop := In (nat_of_ascii c) [9; 10; 11; 12; 13; 32].
Definition blank (w : chars) : Prop := Forall white w.
(** No white space at either end. *)
Definition trimmed (l : chars) : Prop :=
  (forall c t, l = c :: t -> ~ white c) /\ (forall t c, l = t ++ [c] -> ~ white c).
(** Nothing that opens a trailing comment: white space and then a semicolon. *)
Definition uncommented (l : chars) : Prop :=
  forall a s b, l = a ++ s :: ";"%char :: b -> ~ white s.

(** Letters that differ at most in case. *)
Definition capital (c : ascii) : Prop := 65 <= nat_of_ascii c <= 90.
Definition twin (a b : ascii) : Prop :=
  a = b \/ (capital a /\ nat_of_ascii b = nat_of_ascii a + 32)
        \/ (capital b /\ nat_of_ascii a = nat_of_ascii b + 32)%nat.
Definition same (a b : chars) : Prop := Forall2 twin a b.

Inductive item :=
| Nothing
| Section (name : chars)
| Setting (name value : chars)
| More (value : chars)
| Wrong.

(** [reads pending l i]: the line [l] (without its end of line) is an [i];
    [pending] says that a setting precedes it in the section, so that an indented
    line gives that setting another value. *)
Definition at_margin (pending : bool) (w : chars) : Prop := blank w /\ (pending = true -> w = []).
Definition opening (c : ascii) : Prop := c = ";"%char \/ c = "#"%char.

Inductive reads (pending : bool) : chars -> item -> Prop :=
| reads_blank w : blank w -> reads pending w Nothing
| reads_comment w c t : at_margin pending w -> opening c -> reads pending (w ++ c :: t) Nothing
| reads_section w n t : at_margin pending w -> ~ In "]"%char n -> uncommented n ->
    reads pending (w ++ "["%char :: n ++ "]"%char :: t) (Section n)
| reads_setting w n a b v c : at_margin pending w ->
    trimmed n -> blank a -> ~ In "="%char n -> uncommented n ->
    (forall x t, n = x :: t -> ~ opening x /\ x <> "["%char) -> (n = [] -> a = []) ->
    blank b -> trimmed v -> uncommented v ->
    (blank c \/ v <> [] /\ exists s t, c = s ++ ";"%char :: t /\ blank s /\ s <> []) ->
    reads pending (w ++ n ++ a ++ "="%char :: b ++ v ++ c) (Setting n v)
| reads_more w v c : pending = true -> blank w -> w <> [] -> v <> [] -> trimmed v -> blank c ->
    reads pending (w ++ v ++ c) (More v)
| reads_unclosed w n t : at_margin pending w -> ~ In "]"%char n ->
    (t = [] \/ exists s u, t = s :: ";"%char :: u /\ white s) ->
    reads pending (w ++ "["%char :: n ++ t) Wrong
| reads_no_equal w x n t : at_margin pending w ->
    ~ white x -> ~ opening x -> x <> "["%char -> x <> "="%char -> ~ In "="%char n ->
    (t = [] \/ exists s u, t = s :: ";"%char :: u /\ white s) ->
    reads pending (w ++ x :: n ++ t) Wrong.

(** Names of sections are kept up to 49 characters; so are the names that an
    indented line refers to. *)
Definition cut (n : chars) : chars := firstn 49 n.
Definition is_pending (prev : chars) : bool := match prev with [] => false | _ => true end.

(** [means k sec prev ls out err]: in section [sec], with [prev] the setting last
    named, the lines [ls], the first of which is number [k], make the settings
    [out] (section, name, value) in this order; [err] is the first wrong line. *)
Inductive means : nat -> chars -> chars -> list chars -> list (chars * chars * chars) -> option nat -> Prop :=
| means_end k sec prev : means k sec prev [] [] None
| means_nothing k sec prev l ls out err :
    reads (is_pending prev) l Nothing -> means (k + 1) sec prev ls out err ->
    means k sec prev (l :: ls) out err
| means_section k sec prev l ls out err n :
    reads (is_pending prev) l (Section n) -> means (k + 1) (cut n) [] ls out err ->
    means k sec prev (l :: ls) out err
| means_setting k sec prev l ls out err n v :
    reads (is_pending prev) l (Setting n v) -> means (k + 1) sec (cut n) ls out err ->
    means k sec prev (l :: ls) ((sec, n, v) :: out) err
| means_more k sec prev l ls out err v :
    reads (is_pending prev) l (More v) -> means (k + 1) sec prev ls out err ->
    means k sec prev (l :: ls) ((sec, prev, v) :: out) err
| means_wrong k sec prev l ls out err :
    reads (is_pending prev) l Wrong -> means (k + 1) sec prev ls out err ->
    means k sec prev (l :: ls) out (Some k).

(** The text with these lines; the last one may lack its end of line. *)
Definition eol : ascii := ascii_of_nat 10.
Definition lines_of (t : chars) (ls : list chars) : Prop :=
  Forall (fun l => ~ In eol l) ls /\
  (t = concat (map (fun l => l ++ [eol]) ls) \/
   exists front last, ls = front ++ [last] /\ last <> [] /\
     t = concat (map (fun l => l ++ [eol]) front) ++ last).
Definition no_nul (t : chars) : Prop := ~ In (ascii_of_nat 0) t.

(** The last setting of this section and name, whatever the letter case. *)
Definition latest (s n : chars) (out : list (chars * chars * chars)) (v : chars) : Prop :=
  exists before sec nm after, out = before ++ (sec, nm, v) :: after /\ same sec s /\ same nm n /\
    Forall (fun x => ~ (same (fst (fst x)) s /\ same (snd (fst x)) n)) after.
Definition unset (s n : chars) (out : list (chars * chars * chars)) : Prop :=
  Forall (fun x => ~ (same (fst (fst x)) s /\ same (snd (fst x)) n)) out.

(** Section names without a point: [section.name] is then read in one way only. *)
Definition dotless (s : chars) : Prop := ~ In "."%char s.
Definition sections_dotless (out : list (chars * chars * chars)) : Prop :=
  Forall (fun x => dotless (fst (fst x))) out.

(** ** Numbers written in decimal *)
Definition decimal (c : ascii) : Prop := 48 <= nat_of_ascii c <= 57.
Definition dvalue (l : chars) : Z :=
  fold_left (fun acc c => (acc * 10 + (Z.of_nat (nat_of_ascii c) - 48))%Z) l 0%Z.
Definition signed (sg : chars) : Prop := sg = [] \/ sg = ["-"%char] \/ sg = ["+"%char].
Definition signum (sg : chars) : Z := if list_eq_dec ascii_dec sg ["-"%char] then (-1)%Z else 1%Z.

(** White space, a sign and then a digit: what an integer starts with. *)
Definition has_integer (l : chars) : Prop :=
  exists w sg d r, l = w ++ sg ++ d :: r /\ blank w /\ signed sg /\ decimal d.
(** What a real number starts with. *)
Definition has_number (l : chars) : Prop :=
  exists w sg r, l = w ++ sg ++ r /\ blank w /\ signed sg /\
    ((exists d t, r = d :: t /\ decimal d) \/
     (exists d t, r = "."%char :: d :: t /\ decimal d) \/
     (exists u t, r = u ++ t /\ (same u (list_ascii_of_string "inf") \/ same u (list_ascii_of_string "nan")))).
