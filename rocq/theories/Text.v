(* Text files as lists of characters: lines, words and decimal numbers, as Python's readline, split, int, float
   and the % formats treat them. Shared by the models of io/off_io.py and io/obj_io.py. *)
From Coq Require Import Ascii String ZArith NArith Reals.
From Coq Require Import List.
From Verif Require Import Base RBase.
Import ListNotations.
Local Open Scope Z_scope.
Notation text := (list ascii).
Definition str (s : string) : text := list_ascii_of_string s.

Definition chr (n : nat) : ascii := ascii_of_nat n.
Definition nl : ascii := chr 10.
Definition sp : ascii := " "%char.
(* bytes.strip and bytes.split: blank, tab, newline, vertical tab, form feed, carriage return *)
Definition is_space (c : ascii) : bool := let n := nat_of_ascii c in ((n =? 32) || (9 <=? n) && (n <=? 13))%nat.
Fixpoint lstrip (l : text) : text := match l with [] => [] | c :: l' => if is_space c then lstrip l' else l end.
(* the lines file.readline() returns one after the other, with their newlines; at the end of the file it
   returns b"" *)
Fixpoint lines_from (cur l : text) : list text :=
  match l with
  | [] => match cur with [] => [] | _ => [cur] end
  | c :: l' => if Ascii.eqb c nl then (cur ++ [c]) :: lines_from [] l' else lines_from (cur ++ [c]) l'
  end.
Definition lines (l : text) : list text := lines_from [] l.
(* split() *)
Definition flush (cur : text) : list text := match cur with [] => [] | _ => [cur] end.
Fixpoint words_from (cur l : text) : list text :=
  match l with
  | [] => flush cur
  | c :: l' => if is_space c then flush cur ++ words_from [] l' else words_from (cur ++ [c]) l'
  end.
Definition words (l : text) : list text := words_from [] l.
(* line.split(b"#")[0] *)
Fixpoint before_hash (l : text) : text := match l with [] => [] | c :: l' => if Ascii.eqb c "#"%char then [] else c :: before_hash l' end.
Definition count_char (c : ascii) (l : text) : nat := length (filter (Ascii.eqb c) l).

(* ---- numbers ---- *)
Definition digit_of (c : ascii) : option N := let n := nat_of_ascii c in if ((48 <=? n) && (n <=? 57))%nat then Some (N.of_nat (n - 48)) else None.
Definition char_of (d : N) : ascii := chr (48 + N.to_nat d).
(* the digits at the front of a text *)
Fixpoint take_digits (l : text) : list N * text :=
  match l with
  | [] => ([], [])
  | c :: l' => match digit_of c with Some d => let '(ds, r) := take_digits l' in (d :: ds, r) | None => ([], l) end
  end.
Definition number (ds : list N) : N := fold_left (fun a d => 10 * a + d)%N ds 0%N.
Definition take_sign (l : text) : bool * text :=
  match l with c :: l' => if Ascii.eqb c "-"%char then (true, l') else if Ascii.eqb c "+"%char then (false, l') else (false, l) | [] => (false, []) end.
Definition signed (neg : bool) (n : N) : Z := if neg then - Z.of_N n else Z.of_N n.
(* int(word): a sign and digits. Underscores between digits are not modelled. *)
Definition parse_int (l : text) : option Z :=
  let '(neg, l) := take_sign l in
  match take_digits l with ([], _) => None | (ds, []) => Some (signed neg (number ds)) | _ => None end.
(* a decimal number man / 10^exp *)
Record dec := { man : Z; exp : Z }.
(* float(word): a sign, digits with an optional point, an optional exponent. nan, inf and underscores are not
   modelled (they count as no number); the value is exact, not rounded to binary. *)
Definition parse_exp (l : text) : option Z :=
  match l with
  | [] => Some 0
  | c :: l' => if (Ascii.eqb c "e" || Ascii.eqb c "E")%char then parse_int l' else None
  end.
Definition parse_float (l : text) : option dec :=
  let '(neg, l) := take_sign l in
  let '(ip, l) := take_digits l in
  let '(fp, l) := match l with c :: l' => if Ascii.eqb c "."%char then take_digits l' else ([], l) | [] => ([], []) end in
  match ip ++ fp with
  | [] => None
  | ds => match parse_exp l with Some e => Some {| man := signed neg (number ds); exp := Z.of_nat (length fp) - e |} | None => None end
  end.
(* "%d" *)
Fixpoint digits_from (fuel : nat) (n : N) : list N :=
  match fuel with
  | O => [n]
  | S fuel => if (n <? 10)%N then [n] else digits_from fuel (n / 10)%N ++ [(n mod 10)%N]
  end.
Definition digits (n : N) : list N := digits_from (N.size_nat n) n.
Definition print_nat (n : N) : text := map char_of (digits n).
Definition print_int (z : Z) : text := (if z <? 0 then ["-"%char] else []) ++ print_nat (Z.abs_N z).
(* the rounding of "%.df": to the nearest multiple of 10^-d, ties to the even one *)
Definition round_even (y : R) : Z :=
  let f := Int_part y in
  if Rltb (frac_part y) (1 / 2) then f else if Rltb (1 / 2) (frac_part y) then f + 1 else if Z.even f then f else f + 1.
Definition fixed (d : nat) (x : R) : Z := round_even (x * 10 ^ d)%R.
(* "%.df" of the number m / 10^d; the sign of a negative number that rounds to zero is not modelled *)
Definition pad_digits (d : nat) (n : N) : list N := let ds := digits n in repeat 0%N (d - length ds) ++ ds.
Definition print_fixed (d : nat) (m : Z) : text :=
  let n := Z.abs_N m in let p := (10 ^ N.of_nat d)%N in
  (if m <? 0 then ["-"%char] else []) ++ print_nat (n / p)%N ++ (match d with O => [] | _ => "."%char :: map char_of (pad_digits d (n mod p)%N) end).
Definition print_real (d : nat) (x : R) : text := print_fixed d (fixed d x).
(* a row of numbers, as np.savetxt joins them *)
Fixpoint join (sep : ascii) (ws : list text) : text := match ws with [] => [] | [w] => w | w :: ws => w ++ sep :: join sep ws end.
(* rounding an integer to a binary float with p significant bits, ties to even *)
Definition fround (p : Z) (z : Z) : Z :=
  let a := Z.abs z in
  if a <? 2 ^ p then z
  else let k := Z.log2 a - (p - 1) in let u := 2 ^ k in let q := a / u in let r := a mod u in
       let q' := if 2 * r <? u then q else if u <? 2 * r then q + 1 else if Z.even q then q else q + 1 in
       Z.sgn z * (q' * u).
(* int() of a decimal number *)
Definition to_int (x : dec) : Z := if 0 <=? exp x then Z.quot (man x) (10 ^ exp x) else man x * 10 ^ (- exp x).
