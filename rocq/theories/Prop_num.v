(** Property C91: numbers in input files, and numbers in file names. *)
From Coq Require Import Reals Lra.
From Verif Require Import F64 F64R Model_text Model_corr Model_track Model_io Proof_text Proof_text2 Spec_num Proof_num Model_par Spec_par Prop_par Base.
Local Open Scope Z_scope.

(** ===== C91: a number in an input file is read as the decimal it denotes =====
    int(text) *)
Theorem C91_int : forall w z, parse_int w = Ok z <-> integer_text w z.
Proof. exact parse_int_ok. Qed.
Print Assumptions C91_int.
(** and nothing else is accepted. int() and float() of Python also take "_" between digits and float() the words
    nan, inf and infinity in any case; the model does not, so these two theorems are about texts without "_" and
    (floats) without the letter n, which all these words contain *)
Theorem C91_int_refuses : forall w, ~ In "_"%char w -> (forall z, ~ integer_text w z) -> parse_int w = Exn ValueError.
Proof. intros w _ H. destruct (parse_int w) as [z|e] eqn:E; [elim (H z); now apply parse_int_ok|]. now rewrite (parse_int_err w e E). Qed.
Print Assumptions C91_int_refuses.

(** float(text): the nearest double, whatever the notation *)
Theorem C91_float : forall w neg n e, decimal_text w neg n e ->
  exists y, parse_float w = Ok y /\ nearest_double neg (dec_value neg n e) y.
Proof.
  intros w neg n e H. exists (f_of_dec neg n (- e)). split; [now apply parse_float_dec|].
  pose proof (f_of_dec_nearest neg n (- e) (decimal_nonneg _ _ _ _ H)) as X. now rewrite Z.opp_involutive in X.
Qed.
Print Assumptions C91_float.
Theorem C91_float_refuses : forall w, ~ In "_"%char w -> ~ In "n"%char w -> ~ In "N"%char w ->
  (forall neg n e, ~ decimal_text w neg n e) -> parse_float w = Exn ValueError.
Proof.
  intros w _ N _ H1. destruct (parse_float_cases w) as [(neg & n & e & D)|[(neg & u & S & U)|E]]; [elim (H1 neg n e D)| |exact E].
  elim N. destruct S as (p & sg & q & -> & _). apply in_or_app; right. apply in_or_app; right. apply in_or_app; left. destruct U as [->| ->]; cbn; auto.
Qed.
Print Assumptions C91_float_refuses.
Theorem C91_special : forall w neg, (special_text w neg (txt "nan") -> parse_float w = Ok S754_nan) /\
  (special_text w neg (txt "inf") -> parse_float w = Ok (S754_infinity neg)).
Proof. intros w neg. split; intros H; [exact (parse_float_word w neg _ H (or_introl eq_refl))|exact (parse_float_word w neg _ H (or_intror eq_refl))]. Qed.
Print Assumptions C91_special.
(** two notations of the same number give the same double *)
Theorem C91_notation : forall w w' neg n e n' e', decimal_text w neg n e -> decimal_text w' neg n' e' ->
  dec_value neg n e = dec_value neg n' e' -> parse_float w = parse_float w'.
Proof.
  intros w w' neg n e n' e' D D' E. destruct (C91_float w neg n e D) as (y & -> & N). destruct (C91_float w' neg n' e' D') as (y' & -> & N').
  f_equal. rewrite <- E in N'. now apply (nearest_unique neg (dec_value neg n e)).
Qed.
Print Assumptions C91_notation.

(** the lines of a parameter file (C59 states which line is which field) *)
Theorem C91_lines : forall t i,
  (forall z, int_at t i z <-> integer_text (line_no t i) z) /\
  (forall neg n e x, decimal_text (line_no t i) neg n e -> (float_at t i x <-> nearest_double neg (dec_value neg n e) x)).
Proof.
  intros t i. split; [intros z; apply parse_int_ok|]. intros neg n e x D. destruct (C91_float _ _ _ _ D) as (y & E & N). unfold float_at. rewrite E. split.
  - intros [= <-]. exact N.
  - intros N'. f_equal. eapply nearest_unique; eauto.
Qed.
Print Assumptions C91_lines.

(** so a tracking parameter file with eight decimal numbers and an integer is read as these numbers *)
Theorem C91_track_file : forall fs name t (v : nat -> bool * Z * Z) z, fs name = Some t ->
  (forall i, (i < 8)%nat -> let '(neg, n, e) := v i in decimal_text (line_no t i) neg n e) -> integer_text (line_no t 8) z ->
  exists p, read_track fs name = Ok p /\ tk_add p = z /\
    forall i x, nth_error [tk_dvxmin p; tk_dvxmax p; tk_dvymin p; tk_dvymax p; tk_dvzmin p; tk_dvzmax p; tk_dangle p; tk_dacc p] i = Some x ->
      let '(neg, n, e) := v i in nearest_double neg (dec_value neg n e) x.
Proof.
  intros fs name t v z E H Hz. assert (G : forall i, (i < 8)%nat -> exists x, float_at t i x /\ let '(neg, n, e) := v i in nearest_double neg (dec_value neg n e) x).
  { intros i Hi. specialize (H i Hi). destruct (v i) as [[neg n] e]. destruct (C91_float _ _ _ _ H) as (y & Y & N). exists y. split; [exact Y|exact N]. }
  destruct (G 0%nat ltac:(lia)) as (a & A1 & A2). destruct (G 1%nat ltac:(lia)) as (b & B1 & B2). destruct (G 2%nat ltac:(lia)) as (c & C1 & C2). destruct (G 3%nat ltac:(lia)) as (d & D1 & D2).
  destruct (G 4%nat ltac:(lia)) as (f & F1 & F2). destruct (G 5%nat ltac:(lia)) as (g & G1 & G2). destruct (G 6%nat ltac:(lia)) as (h & H1 & H2). destruct (G 7%nat ltac:(lia)) as (k & K1 & K2).
  exists (mk_trackpar a b c d f g h k z fzero fzero fzero fzero). split; [apply (C59_track fs name t _ E); cbn; repeat (split; [assumption || reflexivity|]); reflexivity || idtac|].
  { apply parse_int_ok in Hz. repeat (split; [assumption || reflexivity|]). reflexivity. }
  split; [reflexivity|]. cbn [tk_dvxmin tk_dvxmax tk_dvymin tk_dvymax tk_dvzmin tk_dvzmax tk_dangle tk_dacc]. intros i x Hx.
  do 8 (destruct i as [|i]; [cbn in Hx; injection Hx as <-; assumption|]). destruct i; discriminate Hx.
Qed.
Print Assumptions C91_track_file.

(** ===== C28: the name of a target file.  base % n for a base name pre%05dpost (zeros) or pre%5dpost, with any width: the
    frame number in place of the conversion, filled up with zeros behind the sign or with blanks before it *)
Theorem C28_numbered_name : forall pre (zeros : bool) wd w k post n,
  let base := pre ++ "%"%char :: (if zeros then txt "0" else []) ++ wd ++ "d"%char :: post in
  ~ In "%"%char pre -> ~ In "%"%char post -> ~ In "#"%char pre -> ~ In "#"%char post -> digits wd w k -> (zeros = false -> hd_error wd <> Some "0"%char) -> n <> 0 ->
  exists t, numeral_text zeros w n t /\ write_name base n = Ok (pre ++ t ++ post ++ txt "_targets") /\ (0 < n -> read_name base n = Ok (pre ++ t ++ post ++ txt "_targets")).
Proof.
  intros pre zeros wd w k post n base N1 N2 N3 N4 D Z0 Nn.
  destruct (percent_at (S (length base)) pre zeros wd w k post n N1 N2 D Z0 ltac:(apply Nat.lt_succ_diag_r)) as (t & E & T). fold base in E.
  assert (NH : ~ In "#"%char base).
  { unfold base. intros I. apply in_app_or in I. destruct I as [I|[I|I]]; [contradiction|discriminate|]. apply in_app_or in I. destruct I as [I|I].
    - destruct zeros; [destruct I as [I|[]]; discriminate|destruct I].
    - apply in_app_or in I. destruct I as [I|[I|I]]; [|discriminate|contradiction]. destruct (digits_ds _ _ _ D) as (ds & -> & DD & _).
      apply in_map_iff in I. destruct I as (d & I & J). rewrite Forall_forall in DD. specialize (DD d J). unfold isd in DD.
      assert (Q : d = 0 \/ d = 1 \/ d = 2 \/ d = 3 \/ d = 4 \/ d = 5 \/ d = 6 \/ d = 7 \/ d = 8 \/ d = 9) by lia. intuition subst; discriminate. }
  assert (HP : has "%" base = true) by (apply existsb_exists; exists "%"%char; split; [unfold base; apply in_or_app; right; now left|reflexivity]).
  assert (HN : has "#" base = false).
  { destruct (has "#" base) eqn:H; [|reflexivity]. apply existsb_exists in H. destruct H as (x & I & Q). unfold aeqb in Q. destruct (ascii_dec "#" x); [subst x; contradiction|discriminate]. }
  exists t. split; [exact T|]. unfold write_name, read_name. rewrite HN. cbv zeta. rewrite HP. unfold percent. destruct (Z.eqb_spec n 0); [contradiction|]. rewrite E. cbn [bind].
  rewrite <- !app_assoc. split; [reflexivity|]. intros P. destruct (Z.gtb_spec n 0); [reflexivity|lia].
Qed.
Print Assumptions C28_numbered_name.
(** so different frames have different files *)
Theorem C28_distinct_names : forall pre (zeros : bool) wd w k post n m,
  let base := pre ++ "%"%char :: (if zeros then txt "0" else []) ++ wd ++ "d"%char :: post in
  ~ In "%"%char pre -> ~ In "%"%char post -> ~ In "#"%char pre -> ~ In "#"%char post -> digits wd w k -> (zeros = false -> hd_error wd <> Some "0"%char) ->
  n <> 0 -> m <> 0 -> write_name base n = write_name base m -> n = m.
Proof.
  intros pre zeros wd w k post n m base N1 N2 N3 N4 D Z0 Nn Nm E.
  destruct (C28_numbered_name pre zeros wd w k post n N1 N2 N3 N4 D Z0 Nn) as (t & T & W & _).
  destruct (C28_numbered_name pre zeros wd w k post m N1 N2 N3 N4 D Z0 Nm) as (t' & T' & W' & _).
  fold base in W, W'. rewrite W, W' in E. injection E as E. apply app_inv_head in E. apply app_inv_tail in E. subst t'.
  apply numeral_integer, parse_int_ok in T. apply numeral_integer, parse_int_ok in T'. congruence.
Qed.
Print Assumptions C28_distinct_names.
Example C28_name_case : numeral_text true 5 (-12) (txt "-0012") /\ write_name (txt "img/cam1.%05d") 37 = Ok (txt "img/cam1.00037_targets").
Proof.
  split; [|reflexivity]. exists (txt "-"), (txt "12"), (txt "00"). split; [|split; [reflexivity|split; [repeat constructor|reflexivity]]].
  split; [reflexivity|]. exists 2%nat. split; [|split; [lia|right; discriminate]].
  apply (digits_snoc (txt "1") 1 1 "2" 2 (digits_snoc [] 0 0 "1" 1 digits_nil ltac:(split; [lia|reflexivity])) ltac:(split; [lia|reflexivity])).
Qed.

(** non-vacuity: " -12.50e-1 " is -1.25, and so is "-.125E+1" *)
Lemma dg (d : Z) c : nth_error (txt "0123456789") (Z.to_nat d) = Some c -> 0 <= d -> dig c d.
Proof. split; assumption. Qed.
Example C91_case : decimal_text (txt " -12.50e-1 ") true 1250 (-3) /\ decimal_text (txt "-.125E+1") true 125 (-2) /\
  dec_value true 1250 (-3) = dec_value true 125 (-2) /\ integer_text (txt "+007") 7 /\ special_text (txt "-inf") true (txt "inf").
Proof.
  split; [|split; [|split; [|split]]].
  - exists (txt " "), (txt "-"), (txt "12"), (txt ".50"), (txt "e-1"), (txt " "), 12, 2%nat, 50, 2%nat, (-1).
    split; [reflexivity|]. split; [repeat constructor; cbn; tauto|]. split; [repeat constructor; cbn; tauto|]. split; [right; right; auto|].
    split; [apply (digits_snoc (txt "1") 1 1 "2" 2 (digits_snoc [] 0 0 "1" 1 digits_nil ltac:(now apply dg)) ltac:(now apply dg))|].
    split; [right; exists (txt "50"); split; [reflexivity|apply (digits_snoc (txt "5") 5 1 "0" 0 (digits_snoc [] 0 0 "5" 5 digits_nil ltac:(now apply dg)) ltac:(now apply dg))]|].
    split; [lia|]. split; [right; exists "e"%char, (txt "-"), (txt "1"), true, 1, 1%nat; split; [reflexivity|]; split; [auto|]; split; [right; right; auto|];
      split; [apply (digits_snoc [] 0 0 "1" 1 digits_nil ltac:(now apply dg))|]; split; [lia|reflexivity]|]. split; reflexivity.
  - exists [], (txt "-"), [], (txt ".125"), (txt "E+1"), [], 0, 0%nat, 125, 3%nat, 1.
    split; [reflexivity|]. split; [constructor|]. split; [constructor|]. split; [right; right; auto|]. split; [constructor|].
    split; [right; exists (txt "125"); split; [reflexivity|apply (digits_snoc (txt "12") 12 2 "5" 5 (digits_snoc (txt "1") 1 1 "2" 2 (digits_snoc [] 0 0 "1" 1 digits_nil ltac:(now apply dg)) ltac:(now apply dg)) ltac:(now apply dg))]|].
    split; [lia|]. split; [right; exists "E"%char, (txt "+"), (txt "1"), false, 1, 1%nat; split; [reflexivity|]; split; [auto|]; split; [right; left; auto|];
      split; [apply (digits_snoc [] 0 0 "1" 1 digits_nil ltac:(now apply dg))|]; split; [lia|reflexivity]|]. split; reflexivity.
  - unfold dec_value. change (powerRZ 10 (-3)) with (/ (10 ^ 3))%R. change (powerRZ 10 (-2)) with (/ (10 ^ 2))%R. cbn [pow]. lra.
  - exists [], (txt "+"), (txt "007"), [], false, 7, 3%nat. split; [reflexivity|]. split; [constructor|]. split; [constructor|]. split; [right; left; auto|].
    split; [apply (digits_snoc (txt "00") 0 2 "7" 7 (digits_snoc (txt "0") 0 1 "0" 0 (digits_snoc [] 0 0 "0" 0 digits_nil ltac:(now apply dg)) ltac:(now apply dg)) ltac:(now apply dg))|]. split; [lia|reflexivity].
  - exists [], (txt "-"), []. split; [reflexivity|]. split; [constructor|]. split; [constructor|right; right; auto].
Qed.
