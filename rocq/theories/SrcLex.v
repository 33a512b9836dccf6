(** Splitting source text into tokens, as far as the files of [SrcText] need it. *)
Require Import List NArith Bool String Ascii.
Import ListNotations.
Open Scope string_scope.

(** Tokens: names and keywords, lifetimes, numbers, string literals and punctuation
    (e.g. src/map/storage/boolean.rs:11 has all of them but the second and fourth). *)
Inductive token : Type :=
| TId (x : string)
| TLife (x : string)
| TNum (n : N)
| TStr (x : string)
| TP (x : string).

(** Letters, digits and [_] (e.g. src/map/storage/boolean.rs:11). *)
Definition code (c : ascii) : N := N_of_ascii c.
(** See [code]: the range of characters from [a] to [b] (src/map/storage/boolean.rs:11). *)
Definition between (a b : ascii) (c : ascii) : bool := N.leb (code a) (code c) && N.leb (code c) (code b).
(** Digits (src/map/storage/boolean.rs:11). *)
Definition is_digit (c : ascii) : bool := between "0" "9" c.
(** Characters of names (src/map/storage/boolean.rs:11). *)
Definition is_word (c : ascii) : bool :=
  is_digit c || between "a" "z" c || between "A" "Z" c || Ascii.eqb c "_".
(** Blanks (src/map/storage/boolean.rs:75). *)
Definition is_blank (c : ascii) : bool := N.leb (code c) 32.

(** The number that a string of digits stands for in base [b]; [_] is skipped
    (src/map/storage/boolean.rs:11: [0b10]). *)
Fixpoint digits (b : N) (acc : N) (s : string) : N :=
  match s with
  | "" => acc
  | String c r => digits b (if is_digit c then acc * b + (code c - code "0") else acc) r
  end.
(** Decimal or binary numbers (src/map/storage/boolean.rs:11, 96). *)
Definition number (s : string) : N :=
  match s with
  | String "0" (String "b" r) => digits 2 0 r
  | _ => digits 10 0 s
  end.

(** What the characters read last belong to: nothing, a word, a lifetime, or a string
    literal, which may extend over lines (src/set/intersection.rs:13-14). *)
Inductive mode : Type :=
| MNone
| MWord (x : string)
| MLife (x : string)
| MText (x : string).

(** Punctuation, and whether it is followed by punctuation at once (src/map/storage/boolean.rs:8:
    [::]). *)
Inductive raw : Type :=
| RTok (t : token)
| RPunct (c : ascii) (joint : bool).

(** The token that ends here (src/map/storage/boolean.rs:11). *)
Definition flush (m : mode) : list raw :=
  match m with
  | MNone => []
  | MWord x =>
      match x with
      | String c _ => if is_digit c then [RTok (TNum (number x))] else [RTok (TId x)]
      | "" => []
      end
  | MLife x => [RTok (TLife x)]
  | MText _ => []
  end.

(** Punctuation that the next token starts with (src/map/storage/boolean.rs:8). *)
Definition starts_punct (s : string) : bool :=
  match s with
  | "" => false
  | String c _ => negb (is_word c || is_blank c || Ascii.eqb c "'" || Ascii.eqb c """")
  end.

(** One line.  A comment ends it (src/map/storage/boolean.rs:1). *)
Fixpoint lex_line (m : mode) (s : string) : list raw * mode :=
  match s with
  | "" => match m with MText x => ([], MText x) | _ => (flush m, MNone) end
  | String c r =>
      match m with
      | MText x =>
          if Ascii.eqb c """" then let '(l, m') := lex_line MNone r in (RTok (TStr x) :: l, m')
          else lex_line (MText (x ++ String c "")) r
      | _ =>
          if is_word c then
            match m with
            | MWord x => lex_line (MWord (x ++ String c "")) r
            | MLife x => lex_line (MLife (x ++ String c "")) r
            | _ => lex_line (MWord (String c "")) r
            end
          else
            let emit (t : list raw) (m' : mode) :=
              let '(l, m2) := lex_line m' r in ((flush m ++ t ++ l)%list, m2) in
            if is_blank c then emit [] MNone
            else if Ascii.eqb c "'" then emit [] (MLife "")
            else if Ascii.eqb c """" then emit [] (MText "")
            else if Ascii.eqb c "/" && String.prefix "/" r then (flush m, MNone)
            else emit [RPunct c (starts_punct r)] MNone
      end
  end.

(** All lines (src/map/storage/boolean.rs:1-370). *)
Fixpoint lex_lines (m : mode) (l : list string) : list raw :=
  match l with
  | [] => []
  | s :: r => let '(a, m') := lex_line m s in (a ++ lex_lines m' r)%list
  end.

(** Two characters that make one token (e.g. src/map/storage/boolean.rs:8, 15, 96, 97,
    137, 235, 324, 360). *)
Definition joins (a b : ascii) : bool :=
  existsb (String.eqb (String a (String b "")))
    ["::"; "->"; "=>"; "&&"; "||"; "=="; "!="; "|="; "&="; "<="; ".."].

(** Punctuation of two characters (src/map/storage/boolean.rs:8, 15, 96). *)
Fixpoint join (l : list raw) : list token :=
  match l with
  | [] => []
  | RTok t :: r => t :: join r
  | RPunct a j :: r =>
      match r with
      | RPunct b _ :: r' =>
          if j && joins a b then TP (String a (String b "")) :: join r'
          else TP (String a "") :: join r
      | _ => TP (String a "") :: join r
      end
  end.

(** The tokens of a file (src/map/storage/boolean.rs:1-370). *)
Definition lex (l : list string) : list token := join (lex_lines MNone l).
