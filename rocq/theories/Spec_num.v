(** Vocabulary: how numbers are written in text files, character by character. *)
From Coq Require Import Reals.
From Verif Require Import F64 F64R Model_text Base.
Local Open Scope Z_scope.

(** [c] is the digit [d] *)
Definition dig (c : ascii) (d : Z) : Prop := 0 <= d /\ nth_error (txt "0123456789") (Z.to_nat d) = Some c.
(** [t] consists of [k] digits that denote [n] in base ten *)
Inductive digits : text -> Z -> nat -> Prop :=
| digits_nil : digits [] 0 0
| digits_snoc : forall t n k c d, digits t n k -> dig c d -> digits (t ++ [c]) (10 * n + d) (S k).
(** blanks: tab, line feed, vertical tab, form feed, carriage return, the four ASCII separators, space *)
Definition blanks (t : text) : Prop := Forall (fun c => In (nat_of_ascii c) [9; 10; 11; 12; 13; 28; 29; 30; 31; 32]%nat) t.
(** nothing, "+" or "-" *)
Definition signed (t : text) (neg : bool) : Prop :=
  t = [] /\ neg = false \/ t = txt "+" /\ neg = false \/ t = txt "-" /\ neg = true.

(** an integer, with blanks around it *)
Definition integer_text (w : text) (z : Z) : Prop :=
  exists p sg t q neg n k, w = p ++ sg ++ t ++ q /\ blanks p /\ blanks q /\ signed sg neg /\ digits t n k /\ (0 < k)%nat /\
    z = if neg then - n else n.

(** the exponent part: nothing, or e/E and an integer *)
Definition exponent (t : text) (x : Z) : Prop :=
  t = [] /\ x = 0 \/
  exists c sg u neg n k, t = c :: sg ++ u /\ (c = "e" \/ c = "E")%char /\ signed sg neg /\ digits u n k /\ (0 < k)%nat /\ x = if neg then - n else n.
(** a decimal number (-1)^neg * n * 10^e, with blanks around it: digits, optionally a point and
    digits, at least one digit in all, optionally an exponent *)
Definition decimal_text (w : text) (neg : bool) (n e : Z) : Prop :=
  exists p sg ip fr ex q a ka b kb x, w = p ++ sg ++ ip ++ fr ++ ex ++ q /\ blanks p /\ blanks q /\ signed sg neg /\ digits ip a ka /\
    (fr = [] /\ b = 0 /\ kb = 0%nat \/ exists fp, fr = "."%char :: fp /\ digits fp b kb) /\ (0 < ka + kb)%nat /\ exponent ex x /\
    n = a * 10 ^ Z.of_nat kb + b /\ e = x - Z.of_nat kb.
(** a signed word, with blanks around it *)
Definition special_text (w : text) (neg : bool) (u : text) : Prop :=
  exists p sg q, w = p ++ sg ++ u ++ q /\ blanks p /\ blanks q /\ signed sg neg.

(** the denoted real number *)
Definition dec_value (neg : bool) (n e : Z) : R := ((if neg then -1 else 1) * (IZR n * powerRZ 10 e))%R.
(** [y] is the binary64 number nearest to [r] (ties to even), infinite if that is out of range; zeros carry the sign *)
Definition nearest_double (neg : bool) (r : R) (y : f64) : Prop :=
  ((Rabs (rnd r) < big)%R -> fin y /\ val y = rnd r /\ fsign y = neg) /\
  ((big <= Rabs (rnd r))%R -> y = S754_infinity neg).

(** the shortest way to write z: sign [sg], digits [d]; no plus sign, no leading zeros *)
Definition shortest (z : Z) (sg d : text) : Prop :=
  (sg = if z <? 0 then txt "-" else []) /\ exists k, digits d (Z.abs z) k /\ (0 < k)%nat /\ (k = 1%nat \/ hd_error d <> Some "0"%char).
(** z written with at least w characters: zeros between sign and digits ([zeros]), or blanks before the sign *)
Definition numeral_text (zeros : bool) (w z : Z) (t : text) : Prop :=
  exists sg d p, shortest z sg d /\ t = (if zeros then sg ++ p ++ d else p ++ sg ++ d) /\
    Forall (fun c => c = if zeros then "0"%char else " "%char) p /\ length p = (Z.to_nat w - length (sg ++ d))%nat.
