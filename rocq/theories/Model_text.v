(** Text files: characters, printing and parsing of numbers, lines and tokens.
    This is the small part of Python's text handling that the readers and
    writers of openptv_python use.
    Simplifications: ASCII only; "\r\n" is not translated; int() without
    underscores; float() without underscores, "infinity", "nan"/"inf" in
    capital letters. *)
From Coq Require Export Ascii String.
From Verif Require Import Base F64.
Local Open Scope Z_scope.

Definition text := list ascii.
Definition txt (s : string) : text := list_ascii_of_string s.
Definition nl : ascii := "010"%char.
Definition sp : ascii := " "%char.
Definition aeqb (a b : ascii) : bool := if ascii_dec a b then true else false.
Definition teqb (a b : text) : bool := if list_eq_dec ascii_dec a b then true else false.
Definition code (c : ascii) : Z := Z.of_nat (nat_of_ascii c).

(** ---- digits ---- *)
Definition digit_char (d : Z) : ascii := ascii_of_nat (Z.to_nat (48 + d)).
Definition is_digit (c : ascii) : bool := (48 <=? code c) && (code c <=? 57).
Definition digit_val (c : ascii) : Z := code c - 48.

(** decimal digits of n >= 0, least significant first; the fuel log2 n + 1 is always enough *)
Fixpoint dec_rev (fuel : nat) (n : Z) : list Z :=
  match fuel with
  | O => []
  | S f => if n <? 10 then [n] else n mod 10 :: dec_rev f (n / 10)
  end.
Definition print_nat (n : Z) : text := map digit_char (rev (dec_rev (S (Z.to_nat (Z.log2 n))) n)).
(** exactly k digits (leading zeros), least significant first *)
Fixpoint fix_rev (k : nat) (n : Z) : list Z :=
  match k with O => [] | S j => n mod 10 :: fix_rev j (n / 10) end.
Definition print_fix (k : nat) (n : Z) : text := map digit_char (rev (fix_rev k n)).

(** str(z), "%d" % z, f"{z}" *)
Definition print_int (z : Z) : text := if z <? 0 then "-"%char :: print_nat (- z) else print_nat z.

(** round half to even of a / b, 0 <= a, 0 < b *)
Definition rhe (a b : Z) : Z :=
  let q := a / b in let r := a mod b in
  match (2 * r ?= b) with Lt => q | Gt => q + 1 | Eq => if Z.even q then q else q + 1 end.
(** |x| * 10^k for a finite x, correctly rounded to an integer *)
Definition scaled (k : nat) (x : f64) : Z :=
  match x with
  | S754_finite _ m e => if 0 <=? e then Zpos m * 2 ^ e * 10 ^ Z.of_nat k else rhe (Zpos m * 10 ^ Z.of_nat k) (2 ^ (- e))
  | _ => 0
  end.
Definition fsign (x : f64) : bool :=
  match x with S754_zero s | S754_infinity s | S754_finite s _ _ => s | S754_nan => false end.
(** "%.kf" % x and f"{x:.kf}": the exact binary value rounded to k digits (k >= 1) *)
Definition print_fixed (k : nat) (x : f64) : text :=
  (if fsign x then ["-"%char] else []) ++
  match x with
  | S754_nan => txt "nan"
  | S754_infinity _ => txt "inf"
  | _ => print_nat (scaled k x / 10 ^ Z.of_nat k) ++ "."%char :: print_fix k (scaled k x mod 10 ^ Z.of_nat k)
  end.
(** field width w: "%4d", "%9.4f" *)
Definition pad (w : nat) (t : text) : text := repeat sp (w - List.length t) ++ t.

(** ---- parsing ---- *)
Definition is_space (c : ascii) : bool := ((9 <=? code c) && (code c <=? 13)) || ((28 <=? code c) && (code c <=? 32)).
Fixpoint drop_space (t : text) : text :=
  match t with c :: r => if is_space c then drop_space r else t | [] => [] end.
(** str.strip() *)
Definition strip (t : text) : text := rev (drop_space (rev (drop_space t))).
(** str.split(): [cur] is the current word reversed *)
Fixpoint split_aux (t : text) (cur : text) : list text :=
  match t with
  | [] => match cur with [] => [] | _ => [rev cur] end
  | c :: r => if is_space c then match cur with [] => split_aux r [] | _ => rev cur :: split_aux r [] end
              else split_aux r (c :: cur)
  end.
Definition words (t : text) : list text := split_aux t [].
(** the lines that readline() returns until the end of the file, without their "\n" *)
Fixpoint lines_aux (t : text) (cur : text) : list text :=
  match t with
  | [] => match cur with [] => [] | _ => [rev cur] end
  | c :: r => if aeqb c nl then rev cur :: lines_aux r [] else lines_aux r (c :: cur)
  end.
Definition lines (t : text) : list text := lines_aux t [].
(** readline(): "" at the end of the file *)
Definition readline (l : list text) : text * list text := match l with [] => ([], []) | a :: r => (a, r) end.

Fixpoint span_digits (t : text) : list Z * text :=
  match t with
  | c :: r => if is_digit c then let '(ds, rest) := span_digits r in (digit_val c :: ds, rest) else ([], t)
  | [] => ([], [])
  end.
Definition digits_val (ds : list Z) : Z := fold_left (fun a d => 10 * a + d) ds 0.
Definition take_sign (t : text) : bool * text :=
  match t with c :: r => if aeqb c "-" then (true, r) else if aeqb c "+" then (false, r) else (false, t) | [] => (false, []) end.

(** int(s) *)
Definition parse_int (s : text) : result Z :=
  let '(neg, t) := take_sign (strip s) in
  match span_digits t with
  | ([], _) => Exn ValueError
  | (ds, []) => Ok (if neg then - digits_val ds else digits_val ds)
  | (_, _ :: _) => Exn ValueError
  end.

(** the binary64 number nearest to (-1)^s n / 10^k, ties to even; n >= 0 *)
Definition f_of_dec (s : bool) (n : Z) (k : Z) : f64 :=
  match n with
  | Zpos p => if 0 <=? k then match 10 ^ k with Zpos q => fdiv (S754_finite s p 0) (S754_finite false q 0) | _ => S754_nan end
              else match Zpos p * 10 ^ (- k) with Zpos q => fdiv (S754_finite s q 0) (S754_finite false 1 0) | _ => S754_nan end
  | _ => S754_zero s
  end.
(** exponent part: e[+-]digits *)
Definition parse_exp (t : text) : option Z :=
  match t with
  | [] => Some 0
  | c :: r => if aeqb c "e" || aeqb c "E" then
      let '(neg, u) := take_sign r in
      match span_digits u with
      | ([], _) => None
      | (ds, []) => Some (if neg then - digits_val ds else digits_val ds)
      | _ => None
      end else None
  end.
(** float(s) *)
Definition parse_float (s : text) : result f64 :=
  let '(neg, t) := take_sign (strip s) in
  if teqb t (txt "nan") then Ok S754_nan
  else if teqb t (txt "inf") then Ok (S754_infinity neg)
  else
    let '(ip, rest) := span_digits t in
    let '(fp, rest2) := match rest with c :: r => if aeqb c "." then span_digits r else ([], rest) | [] => ([], []) end in
    match ip ++ fp with
    | [] => Exn ValueError
    | ds => match parse_exp rest2 with
            | Some e => Ok (f_of_dec neg (digits_val ds) (Z.of_nat (List.length fp) - e))
            | None => Exn ValueError
            end
    end.

(** int(x), "%d" % x, ndarray.astype(int): truncation of a finite number *)
Definition trunc (x : f64) : option Z :=
  match x with
  | S754_zero _ => Some 0
  | S754_finite s m e =>
      let a := if 0 <=? e then Zpos m * 2 ^ e else Zpos m / 2 ^ (- e) in Some (if s then - a else a)
  | _ => None
  end.

(** np.fromstring(t, dtype=float, sep=" "): the numbers up to the first word that is none
    (a word that merely starts with a number is not split here) *)
Fixpoint parse_prefix (ws : list text) : list f64 :=
  match ws with
  | [] => []
  | w :: r => match parse_float w with Ok x => x :: parse_prefix r | Exn _ => [] end
  end.
Definition fromstring (t : text) : list f64 := parse_prefix (words t).

(** ---- old-style formatting  base % n  with one integer ---- *)
Fixpoint pct_width (t : text) (w : Z) : Z * text :=
  match t with c :: r => if is_digit c then pct_width r (10 * w + digit_val c) else (w, t) | [] => (w, []) end.
(** "%d", "%Nd", "%0Nd", "%%"; [used]: the argument was already consumed.
    Other conversions are not modelled and count as ValueError. *)
Fixpoint percent_aux (fuel : nat) (t : text) (n : Z) (used : bool) : result text :=
  match fuel with
  | O => Exn OutOfFuel
  | S f =>
    match t with
    | [] => if used then Ok [] else Exn TypeError
    | c :: r =>
      if aeqb c "%" then
        match r with
        | c2 :: r2 =>
          if aeqb c2 "%" then do u <- percent_aux f r2 n used; Ok ("%"%char :: u)
          else
            let zero := aeqb c2 "0" in
            let '(w, rest) := pct_width r 0 in
            match rest with
            | d :: r3 =>
              if aeqb d "d" then
                if used then Exn TypeError
                else
                  let body := print_nat (Z.abs n) in
                  let sign := if n <? 0 then ["-"%char] else [] in
                  let len := List.length (sign ++ body) in
                  let s := if zero then sign ++ repeat "0"%char (Z.to_nat w - len) ++ body
                           else repeat sp (Z.to_nat w - len) ++ sign ++ body in
                  do u <- percent_aux f r3 n true; Ok (s ++ u)
              else Exn ValueError
            | [] => Exn ValueError
            end
        | [] => Exn ValueError
        end
      else do u <- percent_aux f r n used; Ok (c :: u)
    end
  end.
Definition percent (base : text) (n : Z) : result text := percent_aux (S (List.length base)) base n false.
