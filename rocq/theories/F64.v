(** IEEE-754 binary64 numbers and comparisons, via the standard library's
    executable specification (Coq.Floats.SpecFloat): no axioms.
    [f64] is what a numpy float64 / Python float holds (NaN payloads ignored). *)
From Coq Require Export Floats.SpecFloat.
From Coq Require Import ZArith Bool Lia List.
Local Open Scope Z_scope.

Definition f64 := spec_float.
Definition prec64 := 53%Z.
Definition emax64 := 1024%Z.
Definition fadd : f64 -> f64 -> f64 := SFadd prec64 emax64.
Definition fsub : f64 -> f64 -> f64 := SFsub prec64 emax64.
Definition fmul : f64 -> f64 -> f64 := SFmul prec64 emax64.
Definition fdiv : f64 -> f64 -> f64 := SFdiv prec64 emax64.
Definition fsqrt : f64 -> f64 := SFsqrt prec64 emax64.
Definition flt : f64 -> f64 -> bool := SFltb.
Definition fle : f64 -> f64 -> bool := SFleb.
Definition feq : f64 -> f64 -> bool := SFeqb.
Definition fgt a b := flt b a.
Definition fge a b := fle b a.
Definition fneg : f64 -> f64 := SFopp.
Definition fabs : f64 -> f64 := SFabs.
Definition is_nan (a : f64) : bool := match a with S754_nan => true | _ => false end.
Definition fzero : f64 := S754_zero false.
Definition finf : f64 := S754_infinity false.
Definition fnan : f64 := S754_nan.

(** float(z) for an integer z (round to nearest even, as Python's int->float) *)
Definition f_of_Z (z : Z) : f64 :=
  match z with
  | Z0 => S754_zero false
  | Zpos p => binary_normalize prec64 emax64 (Zpos p) 0 false
  | Zneg p => binary_normalize prec64 emax64 (Zneg p) 0 true
  end.

(** ---- order facts, valid for all spec_float values incl. NaN, inf ---- *)

(** A total-preorder key for non-NaN values: lexicographic rank. *)
Definition cmp (a b : f64) : option comparison := SFcompare a b.

Lemma flt_irrefl a : flt a a = false.
Proof.
  unfold flt, SFltb, SFcompare. destruct a as [s|s| |s m e]; try destruct s; simpl; auto.
  - rewrite Z.compare_refl. simpl. now rewrite Pos.compare_cont_refl.
  - rewrite Z.compare_refl. now rewrite Pos.compare_cont_refl.
Qed.

Lemma SFcompare_swap a b :
  SFcompare b a = option_map CompOpp (SFcompare a b).
Proof.
  destruct a as [s1|s1| |s1 m1 e1], b as [s2|s2| |s2 m2 e2]; simpl;
    try destruct s1; try destruct s2; simpl; auto.
  - rewrite (Z.compare_antisym e1 e2). destruct (e1 ?= e2) eqn:E; simpl; auto.
    change (Pos.compare_cont Eq m2 m1) with (m2 ?= m1)%positive.
    change (Pos.compare_cont Eq m1 m2) with (m1 ?= m2)%positive.
    rewrite (Pos.compare_antisym m1 m2). now destruct (m1 ?= m2)%positive.
  - rewrite (Z.compare_antisym e1 e2). destruct (e1 ?= e2) eqn:E; simpl; auto.
    change (Pos.compare_cont Eq m2 m1) with (m2 ?= m1)%positive.
    change (Pos.compare_cont Eq m1 m2) with (m1 ?= m2)%positive.
    rewrite (Pos.compare_antisym m1 m2). now destruct (m1 ?= m2)%positive.
Qed.

Lemma SFcompare_nan_iff a b :
  SFcompare a b = None <-> is_nan a = true \/ is_nan b = true.
Proof.
  destruct a as [s1|s1| |s1 m1 e1], b as [s2|s2| |s2 m2 e2]; simpl;
    try destruct s1; try destruct s2; simpl; split; intros H;
    try discriminate; try tauto; try (destruct H; discriminate);
    destruct (e1 ?= e2); discriminate.
Qed.

Lemma fgt_flt_swap a b : flt b a = match SFcompare a b with Some Gt => true | _ => false end.
Proof. unfold flt, SFltb. rewrite SFcompare_swap. destruct (SFcompare a b) as [[]|]; auto. Qed.

(** Integer key: order embedding of non-NaN values into Z x Z x Z lexicographic.
    We use a direct triple key: sign class, exponent part, mantissa part. *)
Definition key (a : f64) : Z * Z * Z :=
  match a with
  | S754_infinity true => (-2, 0, 0)
  | S754_finite true m e => (-1, - e, - Zpos m)
  | S754_zero _ => (0, 0, 0)
  | S754_nan => (0, 0, 0)
  | S754_finite false m e => (1, e, Zpos m)
  | S754_infinity false => (2, 0, 0)
  end.

Definition klt (x y : Z * Z * Z) : Prop :=
  let '(a, b, c) := x in let '(a', b', c') := y in
  a < a' \/ (a = a' /\ (b < b' \/ (b = b' /\ c < c'))).

Lemma SFcompare_key a b :
  is_nan a = false -> is_nan b = false ->
  match SFcompare a b with
  | Some Lt => klt (key a) (key b)
  | Some Gt => klt (key b) (key a)
  | Some Eq => key a = key b
  | None => False
  end.
Proof.
  destruct a as [s1|s1| |s1 m1 e1], b as [s2|s2| |s2 m2 e2]; simpl; intros Ha Hb;
    try discriminate; try destruct s1; try destruct s2; simpl; try lia; auto.
  - destruct (Z.compare_spec e1 e2) as [E|E|E]; simpl; try lia.
    subst. change (Pos.compare_cont Eq m1 m2) with (m1 ?= m2)%positive.
    destruct (Pos.compare_spec m1 m2); simpl; subst; try lia; auto.
  - destruct (Z.compare_spec e1 e2) as [E|E|E]; simpl; try lia.
    subst. change (Pos.compare_cont Eq m1 m2) with (m1 ?= m2)%positive.
    destruct (Pos.compare_spec m1 m2); simpl; subst; try lia; auto.
Qed.

Lemma klt_trans x y z : klt x y -> klt y z -> klt x z.
Proof. destruct x as [[? ?] ?], y as [[? ?] ?], z as [[? ?] ?]; simpl; lia. Qed.

Lemma flt_klt a b :
  flt a b = true <-> is_nan a = false /\ is_nan b = false /\ klt (key a) (key b).
Proof.
  unfold flt, SFltb. split.
  - intros H. destruct (SFcompare a b) as [[]|] eqn:E; try discriminate.
    assert (is_nan a = false /\ is_nan b = false) as [Ha Hb].
    { destruct (is_nan a) eqn:Ha.
      { destruct a; try discriminate. }
      destruct (is_nan b) eqn:Hb; auto. destruct b; try discriminate.
      destruct a as [[]|[]| |[]]; discriminate. }
    pose proof (SFcompare_key a b Ha Hb) as K. rewrite E in K. auto.
  - intros (Ha & Hb & K). pose proof (SFcompare_key a b Ha Hb) as K'.
    destruct (SFcompare a b) as [[]|]; auto; exfalso; auto.
    + rewrite K' in K. destruct (key b) as [[? ?] ?]; simpl in K; lia.
    + destruct (key a) as [[? ?] ?], (key b) as [[? ?] ?]; simpl in *; lia.
Qed.

Definition kle (x y : Z * Z * Z) : Prop := klt x y \/ x = y.

Lemma fle_kle a b :
  fle a b = true <-> is_nan a = false /\ is_nan b = false /\ kle (key a) (key b).
Proof.
  unfold fle, SFleb. split.
  - intros H.
    assert (is_nan a = false /\ is_nan b = false) as [Ha Hb].
    { destruct (is_nan a) eqn:Ha.
      { destruct a; try discriminate. }
      destruct (is_nan b) eqn:Hb; auto. destruct b; try discriminate.
      destruct a as [[]|[]| |[]]; discriminate. }
    pose proof (SFcompare_key a b Ha Hb) as K. unfold kle.
    destruct (SFcompare a b) as [[]|]; try discriminate; auto.
  - intros (Ha & Hb & K). pose proof (SFcompare_key a b Ha Hb) as K'.
    destruct (SFcompare a b) as [[]|]; auto; exfalso; auto.
    unfold kle in K. destruct (key a) as [[? ?] ?], (key b) as [[? ?] ?]; simpl in *.
    destruct K as [K|K]; [|inversion K]; lia.
Qed.

Lemma flt_trans a b c : flt a b = true -> flt b c = true -> flt a c = true.
Proof. rewrite !flt_klt. intros (?&?&?) (?&?&?). eauto using klt_trans. Qed.

Lemma kle_cases (x y : Z * Z * Z) : klt x y \/ x = y \/ klt y x.
Proof.
  destruct x as [[a b] c], y as [[a' b'] c']; simpl.
  destruct (Z.lt_total a a') as [?|[?|?]]; try lia.
  destruct (Z.lt_total b b') as [?|[?|?]]; try lia.
  destruct (Z.lt_total c c') as [?|[?|?]]; try lia.
  subst; auto.
Qed.

Lemma fle_trans a b c : fle a b = true -> fle b c = true -> fle a c = true.
Proof.
  rewrite !fle_kle. intros (?&?&H1) (?&?&H2). repeat split; auto.
  destruct H1 as [H1|H1], H2 as [H2|H2]; unfold kle; subst; try (rewrite H1 in *); try (rewrite <- H2 in *);
    eauto using klt_trans.
Qed.

Lemma fle_refl a : is_nan a = false -> fle a a = true.
Proof. intros; apply fle_kle; unfold kle; auto. Qed.

Lemma flt_fle_trans a b c : flt a b = true -> fle b c = true -> flt a c = true.
Proof.
  rewrite !flt_klt, fle_kle. intros (?&?&H1) (?&?&[H2|H2]); repeat split; auto;
  [eauto using klt_trans | congruence].
Qed.

Lemma fle_flt_trans a b c : fle a b = true -> flt b c = true -> flt a c = true.
Proof.
  rewrite !flt_klt, fle_kle. intros (?&?&[H2|H2]) (?&?&H1); repeat split; auto;
  [eauto using klt_trans | congruence].
Qed.

Lemma flt_fle a b : flt a b = true -> fle a b = true.
Proof. rewrite flt_klt, fle_kle. unfold kle; tauto. Qed.

(** not (a < b) iff b <= a, for numbers that are not NaN *)
Lemma flt_false_fle a b :
  is_nan a = false -> is_nan b = false -> (flt a b = false <-> fle b a = true).
Proof.
  intros Ha Hb. split.
  - intros H. apply fle_kle. repeat split; auto.
    destruct (kle_cases (key a) (key b)) as [K|[K|K]]; unfold kle; auto.
    assert (flt a b = true) by (apply flt_klt; auto). congruence.
  - intros H. destruct (flt a b) eqn:E; auto.
    pose proof (flt_fle_trans _ _ _ E H) as E2. now rewrite flt_irrefl in E2.
Qed.

Lemma fle_false_flt a b :
  is_nan a = false -> is_nan b = false -> (fle a b = false <-> flt b a = true).
Proof.
  intros Ha Hb. pose proof (flt_false_fle b a Hb Ha) as H.
  destruct (fle a b), (flt b a); split; intros; auto; try discriminate.
  - destruct H as [_ H]. specialize (H eq_refl). congruence.
  - destruct H as [H _]. specialize (H eq_refl). congruence.
Qed.

Lemma flt_not_nan a b : flt a b = true -> is_nan a = false /\ is_nan b = false.
Proof. rewrite flt_klt; tauto. Qed.
Lemma fle_not_nan a b : fle a b = true -> is_nan a = false /\ is_nan b = false.
Proof. rewrite fle_kle; tauto. Qed.

Lemma fle_total a b : is_nan a = false -> is_nan b = false -> fle a b = true \/ fle b a = true.
Proof.
  intros Ha Hb. destruct (flt a b) eqn:E; [left; now apply flt_fle|right].
  now apply flt_false_fle.
Qed.

Lemma feq_key a b : feq a b = true <-> is_nan a = false /\ is_nan b = false /\ key a = key b.
Proof.
  unfold feq, SFeqb. split.
  - intros H.
    assert (is_nan a = false /\ is_nan b = false) as [Ha Hb].
    { destruct (is_nan a) eqn:Ha.
      { destruct a; try discriminate. }
      destruct (is_nan b) eqn:Hb; auto. destruct b; try discriminate.
      destruct a as [[]|[]| |[]]; discriminate. }
    pose proof (SFcompare_key a b Ha Hb) as K.
    destruct (SFcompare a b) as [[]|]; try discriminate; auto.
  - intros (Ha & Hb & K). pose proof (SFcompare_key a b Ha Hb) as K'.
    destruct (SFcompare a b) as [[]|]; auto; exfalso; auto; rewrite K in K';
      destruct (key b) as [[? ?] ?]; simpl in K'; lia.
Qed.
