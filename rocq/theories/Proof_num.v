(** Reading numbers. *)
From Coq Require Import Reals Psatz Lra.
From Flocq Require Import Core.Core IEEE754.BinarySingleNaN.
From Verif Require Import F64 F64R Model_text Proof_text Proof_text2 Spec_num Base.
Local Open Scope Z_scope.

Lemma dig_char c d : dig c d <-> isd d /\ c = digit_char d.
Proof.
  unfold dig, isd. split.
  - intros (H & N). assert (L : (Z.to_nat d < 10)%nat) by (change 10%nat with (length (txt "0123456789")); apply nth_error_Some; congruence).
    split; [lia|]. assert (C : d = 0 \/ d = 1 \/ d = 2 \/ d = 3 \/ d = 4 \/ d = 5 \/ d = 6 \/ d = 7 \/ d = 8 \/ d = 9) by lia.
    repeat (destruct C as [->|C]; [vm_compute in N; injection N as <-; reflexivity|]). subst d. vm_compute in N. injection N as <-. reflexivity.
  - intros (H & ->). split; [lia|]. assert (C : d = 0 \/ d = 1 \/ d = 2 \/ d = 3 \/ d = 4 \/ d = 5 \/ d = 6 \/ d = 7 \/ d = 8 \/ d = 9) by lia.
    repeat (destruct C as [->|C]; [reflexivity|]). subst d. reflexivity.
Qed.
Lemma digits_ds t n k : digits t n k -> exists ds, t = map digit_char ds /\ Forall isd ds /\ digits_val ds = n /\ length ds = k.
Proof.
  induction 1 as [|t n k c d H (ds & -> & F & V & L) D]; [exists []; auto|].
  apply dig_char in D as (D & ->). exists (ds ++ [d]). split; [now rewrite map_app|]. split; [apply Forall_app; auto|]. split; [rewrite digits_val_snoc; lia|]. rewrite app_length. cbn [length]. lia.
Qed.
Lemma ds_digits ds : Forall isd ds -> digits (map digit_char ds) (digits_val ds) (length ds).
Proof.
  induction ds as [|d ds IH] using rev_ind; intros F; [constructor|]. apply Forall_app in F as (F & D). inversion D; subst.
  rewrite map_app, digits_val_snoc, app_length. cbn [map length]. rewrite Nat.add_1_r. constructor; [auto|]. apply dig_char. auto.
Qed.
Lemma is_space_code c : is_space c = true <-> In (nat_of_ascii c) [9; 10; 11; 12; 13; 28; 29; 30; 31; 32]%nat.
Proof. unfold is_space, code. cbn [In]. rewrite orb_true_iff, !andb_true_iff, !Z.leb_le. lia. Qed.
Lemma blanks_spaces t : blanks t <-> forallb is_space t = true.
Proof. unfold blanks. rewrite Forall_forall, forallb_forall. split; intros H x I; apply is_space_code; auto. Qed.
Lemma drop_blanks p t : blanks p -> drop_space (p ++ t) = drop_space t.
Proof. induction 1 as [|c p H F IH]; [reflexivity|]. cbn [app drop_space]. apply is_space_code in H. rewrite H. exact IH. Qed.
Lemma blanks_rev p : blanks p -> blanks (rev p).
Proof. unfold blanks. rewrite !Forall_forall. intros H x I. apply H. now apply in_rev. Qed.
Lemma blanks_nil : blanks []. Proof. constructor. Qed.
Lemma nospace_rev t : nospace t -> nospace (rev t).
Proof. unfold nospace. intros H. now apply Forall_rev'. Qed.
Lemma strip_core p v q : blanks p -> blanks q -> nospace v -> strip (p ++ v ++ q) = v.
Proof.
  intros P Q V. unfold strip. rewrite drop_blanks by exact P. destruct v as [|c v].
  - cbn [app]. assert (E : drop_space q = []) by (rewrite <- (app_nil_r q), drop_blanks by exact Q; reflexivity). rewrite E. reflexivity.
  - assert (E : drop_space ((c :: v) ++ q) = (c :: v) ++ q) by (cbn [app drop_space]; inversion V; subst; rewrite H1; reflexivity).
    rewrite E, rev_app_distr, drop_blanks by now apply blanks_rev. rewrite drop_nospace by now apply nospace_rev. apply rev_involutive.
Qed.
Lemma drop_split t : exists p, blanks p /\ t = p ++ drop_space t.
Proof.
  induction t as [|c t (p & P & E)]; [exists []; split; [constructor|reflexivity]|]. cbn [drop_space]. destruct (is_space c) eqn:S.
  - exists (c :: p). split; [constructor; [now apply is_space_code|exact P]|]. cbn [app]. now f_equal.
  - exists []. split; [constructor|reflexivity].
Qed.
Lemma strip_split t : exists p q, blanks p /\ blanks q /\ t = p ++ strip t ++ q.
Proof.
  destruct (drop_split t) as (p & P & E). destruct (drop_split (rev (drop_space t))) as (q & Q & E2).
  exists p, (rev q). split; [exact P|]. split; [now apply blanks_rev|]. rewrite E at 1. f_equal. apply (f_equal (@rev ascii)) in E2. rewrite rev_involutive, rev_app_distr in E2. exact E2.
Qed.

Lemma digit_char_val c : is_digit c = true -> isd (digit_val c) /\ digit_char (digit_val c) = c.
Proof.
  intros H. unfold is_digit in H. apply andb_true_iff in H as (A & B). apply Z.leb_le in A, B. unfold isd, digit_val, digit_char. split; [lia|].
  replace (48 + (code c - 48)) with (code c) by lia. unfold code. rewrite Nat2Z.id. apply ascii_nat_embedding.
Qed.
Lemma span_split t : forall ds r, span_digits t = (ds, r) -> t = map digit_char ds ++ r /\ Forall isd ds.
Proof.
  induction t as [|c t IH]; intros ds r E; cbn [span_digits] in E; [injection E as <- <-; auto|].
  destruct (is_digit c) eqn:D; [|injection E as <- <-; auto]. destruct (span_digits t) as [ds' r'] eqn:X. injection E as <- <-.
  destruct (IH ds' r' eq_refl) as (-> & F). destruct (digit_char_val c D) as (I & J). cbn [map app]. rewrite J. auto.
Qed.
Lemma take_sign_split t neg r : take_sign t = (neg, r) -> exists sg, t = sg ++ r /\ signed sg neg.
Proof.
  destruct t as [|c t]; cbn [take_sign]; [intros [= <- <-]; exists []; split; [reflexivity|left; auto]|].
  destruct (aeqb_spec c "-") as [->|N1]; [intros [= <- <-]; exists (txt "-"); split; [reflexivity|right; right; auto]|].
  destruct (aeqb_spec c "+") as [->|N2]; intros [= <- <-]; [exists (txt "+"); split; [reflexivity|right; left; auto]|].
  exists []. split; [reflexivity|left; auto].
Qed.
Definition no_sign_head (r : text) : Prop := match r with c :: _ => c <> "-"%char /\ c <> "+"%char | [] => True end.
Lemma take_sign_app sg neg r : signed sg neg -> no_sign_head r -> take_sign (sg ++ r) = (neg, r).
Proof.
  intros [(-> & ->)|[(-> & ->)|(-> & ->)]] H; cbn [app]; [|reflexivity|reflexivity].
  destruct r as [|c r]; [reflexivity|]. cbn [take_sign]. destruct H. rewrite !aeqb_neq by assumption. reflexivity.
Qed.
Lemma ds_no_sign ds r : Forall isd ds -> ds <> [] -> no_sign_head (map digit_char ds ++ r).
Proof. intros F N. destruct F as [|d ds D F]; [contradiction|]. cbn. destruct (digit_not_minus d D) as (A & B & _). split; intros E; rewrite E in *; discriminate. Qed.
Lemma signed_nospace sg neg : signed sg neg -> nospace sg.
Proof. intros [(-> & _)|[(-> & _)|(-> & _)]]; repeat constructor. Qed.

(** ---- integers ---- *)
Lemma parse_int_ok w z : parse_int w = Ok z <-> integer_text w z.
Proof.
  split.
  - unfold parse_int. destruct (take_sign (strip w)) as [neg t] eqn:E. apply take_sign_split in E as (sg & E & SG).
    destruct (span_digits t) as [ds r] eqn:D. apply span_split in D as (-> & F). destruct ds as [|d ds]; [discriminate|]. destruct r; [|discriminate]. intros [= <-].
    destruct (strip_split w) as (p & q & P & Q & W). rewrite E, app_nil_r in W.
    exists p, sg, (map digit_char (d :: ds)), q, neg, (digits_val (d :: ds)), (length (d :: ds)).
    split; [rewrite W at 1; now rewrite <- app_assoc|]. split; [exact P|]. split; [exact Q|]. split; [exact SG|]. split; [now apply ds_digits|]. split; [cbn [length]; lia|reflexivity].
  - intros (p & sg & t & q & neg & n & k & -> & P & Q & SG & D & K & ->). apply digits_ds in D as (ds & -> & F & V & L).
    assert (N : ds <> []) by (intros ->; cbn in L; lia). unfold parse_int.
    replace (p ++ sg ++ map digit_char ds ++ q) with (p ++ (sg ++ map digit_char ds) ++ q) by now rewrite <- app_assoc.
    rewrite strip_core; [|exact P|exact Q|apply nospace_app; [eapply signed_nospace; eauto|now apply digits_nospace]].
    rewrite (take_sign_app sg neg) by (auto; rewrite <- (app_nil_r (map _ _)); now apply ds_no_sign). rewrite span_map' by exact F.
    destruct ds as [|d ds]; [contradiction|]. now rewrite V.
Qed.
Lemma parse_int_err w e : parse_int w = Exn e -> e = ValueError.
Proof. unfold parse_int. destruct (take_sign _) as [neg t]. destruct (span_digits t) as [[|d ds] [|c r]]; congruence. Qed.

(** ---- floats ---- *)
Lemma parse_exp_ok t x : parse_exp t = Some x <-> exponent t x.
Proof.
  split.
  - destruct t as [|c r]; cbn [parse_exp]; [intros [= <-]; left; auto|]. destruct (aeqb c "e" || aeqb c "E") eqn:C; [|discriminate].
    destruct (take_sign r) as [neg u] eqn:E. apply take_sign_split in E as (sg & -> & SG). destruct (span_digits u) as [ds rest] eqn:D. apply span_split in D as (-> & F).
    destruct ds as [|d ds]; [discriminate|]. destruct rest; [|discriminate]. intros [= <-]. right. rewrite app_nil_r.
    exists c, sg, (map digit_char (d :: ds)), neg, (digits_val (d :: ds)), (length (d :: ds)). split; [reflexivity|]. split.
    { apply orb_true_iff in C as [C|C]; [left|right]; [destruct (aeqb_spec c "e")|destruct (aeqb_spec c "E")]; congruence. }
    split; [exact SG|]. split; [now apply ds_digits|]. split; [cbn [length]; lia|reflexivity].
  - intros [(-> & ->)|(c & sg & u & neg & n & k & -> & C & SG & D & K & ->)]; [reflexivity|]. apply digits_ds in D as (ds & -> & F & V & L).
    assert (N : ds <> []) by (intros ->; cbn in L; lia). cbn [parse_exp]. assert (CC : aeqb c "e" || aeqb c "E" = true) by (destruct C as [-> | ->]; reflexivity). rewrite CC.
    rewrite (take_sign_app sg neg) by (auto; rewrite <- (app_nil_r (map _ _)); now apply ds_no_sign). rewrite span_map' by exact F.
    destruct ds as [|d ds]; [contradiction|]. now rewrite V.
Qed.
Lemma exponent_nospace t x : exponent t x -> nospace t.
Proof.
  intros [(-> & _)|(c & sg & u & neg & n & k & -> & C & SG & D & _ & _)]; [constructor|]. apply digits_ds in D as (ds & -> & F & _).
  constructor; [destruct C as [-> | ->]; reflexivity|]. apply nospace_app; [eapply signed_nospace; eauto|now apply digits_nospace].
Qed.
Lemma exponent_head t x : exponent t x -> head_not_digit t /\ match t with c :: _ => c <> "."%char | [] => True end.
Proof. intros [(-> & _)|(c & sg & u & neg & n & k & -> & C & _)]; cbn; [auto|]. destruct C as [-> | ->]; split; try discriminate; reflexivity. Qed.

Lemma parse_float_word w neg u : special_text w neg u -> u = txt "nan" \/ u = txt "inf" -> parse_float w = Ok (if teqb u (txt "nan") then S754_nan else S754_infinity neg).
Proof.
  intros (p & sg & q & -> & P & Q & SG) U. unfold parse_float. replace (p ++ sg ++ u ++ q) with (p ++ (sg ++ u) ++ q) by now rewrite <- app_assoc.
  rewrite strip_core; [|exact P|exact Q|apply nospace_app; [eapply signed_nospace; eauto|destruct U as [-> | ->]; repeat constructor]].
  rewrite (take_sign_app sg neg); [|exact SG|destruct U as [-> | ->]; cbn; split; discriminate]. destruct U as [-> | ->]; reflexivity.
Qed.

Lemma parse_float_dec w neg n e : decimal_text w neg n e -> parse_float w = Ok (f_of_dec neg n (- e)).
Proof.
  intros (p & sg & ip & fr & ex & q & a & ka & b & kb & x & -> & P & Q & SG & DI & FR & K & EX & -> & ->).
  apply digits_ds in DI as (ds & -> & F & V & L).
  pose proof (exponent_head ex x EX) as (HE1 & HE2). pose proof (exponent_nospace ex x EX) as NE.
  assert (exists fs, Forall isd fs /\ digits_val fs = b /\ length fs = kb /\ (fr = [] /\ fs = [] \/ fr = "."%char :: map digit_char fs)) as (fs & FF & FV & FL & FR').
  { destruct FR as [(-> & -> & ->)|(fp & -> & D)]; [exists []; auto 10|]. apply digits_ds in D as (fs & -> & F' & V' & L'). exists fs. auto. }
  clear FR. unfold parse_float.
  replace (p ++ sg ++ map digit_char ds ++ fr ++ ex ++ q) with (p ++ (sg ++ map digit_char ds ++ fr ++ ex) ++ q) by (repeat rewrite <- app_assoc; reflexivity).
  assert (NF : nospace fr) by (destruct FR' as [(-> & _)|E]; [constructor|rewrite E; constructor; [reflexivity|now apply digits_nospace]]).
  rewrite strip_core; [|exact P|exact Q|].
  2:{ apply nospace_app; [eapply signed_nospace; eauto|]. apply nospace_app; [now apply digits_nospace|]. apply nospace_app; assumption. }
  assert (HN : no_sign_head (map digit_char ds ++ fr ++ ex)).
  { destruct ds as [|d ds]; [|apply ds_no_sign; [exact F|discriminate]]. cbn [map app]. destruct FR' as [(-> & ->)|E]; [cbn [length] in *; lia|]. rewrite E. cbn. split; discriminate. }
  rewrite (take_sign_app sg neg) by assumption.
  assert (HT : forall c r, is_digit c = false -> c <> "."%char -> teqb (map digit_char ds ++ fr ++ ex) (c :: r) = false).
  { intros c r C1 C2. destruct (teqb_spec (map digit_char ds ++ fr ++ ex) (c :: r)) as [E|]; [|reflexivity]. exfalso. destruct ds as [|d ds].
    - cbn [map app] in E. destruct FR' as [(-> & ->)|E']; [cbn [length] in *; lia|]. rewrite E' in E. cbn in E. congruence.
    - cbn in E. injection E as E _. inversion F; subst. rewrite is_digit_char in C1 by assumption. discriminate. }
  change (txt "nan") with ("n"%char :: txt "an"). change (txt "inf") with ("i"%char :: txt "nf"). rewrite !HT by (reflexivity || discriminate).
  rewrite span_map; [|exact F|destruct FR' as [(-> & _)|E]; [exact HE1|rewrite E; reflexivity]].
  cbv iota beta. lazymatch goal with |- context [match ?m with pair _ _ => _ end] => assert (E2 : m = (fs, ex)) end.
  { destruct FR' as [(-> & ->)|E].
    - cbn [app]. destruct ex as [|c ex']; [reflexivity|]. rewrite aeqb_neq by exact HE2. reflexivity.
    - rewrite E. cbn [app]. change (aeqb "." ".") with true. cbv iota. now apply span_map. }
  rewrite E2. assert (NN : ds ++ fs <> []) by (intros E; apply app_eq_nil in E as (-> & ->); cbn [length] in *; lia).
  destruct (ds ++ fs) as [|d0 l0] eqn:E3; [contradiction|]. rewrite <- E3. rewrite (proj2 (parse_exp_ok ex x) EX). rewrite digits_val_app, V, FV, FL. do 2 f_equal. lia.
Qed.

Lemma parse_float_cases w :
  (exists neg n e, decimal_text w neg n e) \/ (exists neg u, special_text w neg u /\ (u = txt "nan" \/ u = txt "inf")) \/ parse_float w = Exn ValueError.
Proof.
  destruct (strip_split w) as (p & q & P & Q & W). unfold parse_float. destruct (take_sign (strip w)) as [neg t] eqn:E. apply take_sign_split in E as (sg & E & SG). rewrite E in W.
  destruct (teqb_spec t (txt "nan")) as [->|_]; [right; left; exists neg, (txt "nan"); split; [exists p, sg, q; rewrite W; rewrite <- !app_assoc; auto|auto]|].
  destruct (teqb_spec t (txt "inf")) as [->|_]; [right; left; exists neg, (txt "inf"); split; [exists p, sg, q; rewrite W; rewrite <- !app_assoc; auto|auto]|].
  destruct (span_digits t) as [ds rest] eqn:D. apply span_split in D as (-> & F).
  destruct (match rest with c :: r => if aeqb c "." then span_digits r else ([], rest) | [] => ([], []) end) as [fs rest2] eqn:D2.
  assert (exists fr, rest = fr ++ rest2 /\ Forall isd fs /\ (fr = [] /\ fs = [] \/ fr = "."%char :: map digit_char fs)) as (fr & -> & FF & FR).
  { destruct rest as [|c r]; [injection D2 as <- <-; exists []; auto|]. destruct (aeqb_spec c ".") as [->|_]; [|injection D2 as <- <-; exists []; auto].
    apply span_split in D2 as (-> & FF). exists ("."%char :: map digit_char fs). auto. }
  destruct (ds ++ fs) as [|d0 l0] eqn:E3; [auto|]. rewrite <- E3. destruct (parse_exp rest2) as [x|] eqn:EX; [|auto]. apply parse_exp_ok in EX. left.
  exists neg, (digits_val ds * 10 ^ Z.of_nat (length fs) + digits_val fs), (x - Z.of_nat (length fs)).
  exists p, sg, (map digit_char ds), fr, rest2, q, (digits_val ds), (length ds), (digits_val fs), (length fs), x.
  split; [rewrite W; rewrite <- !app_assoc; reflexivity|]. split; [exact P|]. split; [exact Q|]. split; [exact SG|]. split; [now apply ds_digits|]. split.
  { destruct FR as [(-> & ->)|E']; [left; auto|right; exists (map digit_char fs); split; [exact E'|now apply ds_digits]]. }
  split; [rewrite <- app_length, E3; cbn [length]; lia|]. auto.
Qed.

(** ---- the value ---- *)
Local Open Scope R_scope.
Lemma frac_correct (s : bool) (p q : positive) : let r := (if s then -1 else 1) * (IZR (Zpos p) / IZR (Zpos q)) in nearest_double s r (fdiv (S754_finite s p 0) (S754_finite false q 0)).
Proof.
  cbv zeta. pose proof (Bdiv_correct_aux 53 1024 Hprec64 Hmax64 mode_NE s p 0 false q 0) as H. cbv zeta in H. destruct H as (V & H).
  assert (QQ : F2R (Float radix2 (SpecFloat.cond_Zopp s (Z.pos p)) 0) / F2R (Float radix2 (SpecFloat.cond_Zopp false (Z.pos q)) 0)
      = (if s then -1 else 1) * (IZR (Z.pos p) / IZR (Z.pos q))).
  { unfold F2R. cbn [Fnum Fexp bpow]. destruct s; cbn [SpecFloat.cond_Zopp Z.opp]; [|field; apply not_0_IZR; lia].
    change (Z.neg p) with (- Z.pos p)%Z. rewrite opp_IZR. field. apply not_0_IZR. lia. }
  rewrite QQ in H. change (round_mode mode_NE) with ZnearestE in H. set (r := (if s then -1 else 1) * (IZR (Z.pos p) / IZR (Z.pos q))) in *.
  change (round radix2 (SpecFloat.fexp 53 1024) ZnearestE r) with (rnd r) in H.
  assert (FD : fdiv (S754_finite s p 0) (S754_finite false q 0) =
      (let '(mz, ez, lz) := SpecFloat.SFdiv_core_binary 53 1024 (Z.pos p) 0 (Z.pos q) 0 in BinarySingleNaN.binary_round_aux 53 1024 mode_NE s mz ez lz)).
  { unfold fdiv, prec64, emax64. cbn [SFdiv]. destruct (SpecFloat.SFdiv_core_binary _ _ _ _ _ _) as [[mz ez] lz]. rewrite xorb_false_r. apply binary_round_aux_equiv. }
  rewrite FD. clear FD. rewrite xorb_false_r in *. destruct (SpecFloat.SFdiv_core_binary 53 1024 (Z.pos p) 0 (Z.pos q) 0) as [[mz ez] lz].
  change (bpow radix2 1024) with big in H. split; intros B.
  - rewrite Rlt_bool_true in H by exact B. destruct H as (HV & HF & HS). split; [split; assumption|]. split; [exact HV|].
    destruct (BinarySingleNaN.binary_round_aux _ _ _ _ _ _ _) as [s'|s'| |s' m' e']; cbn [is_finite_SF sign_SF fsign] in HF, HS |- *; [exact HS|discriminate HF|discriminate HF|exact HS].
  - rewrite Rlt_bool_false in H by exact B. exact H.
Qed.
Lemma f_of_dec_nearest s n k : (0 <= n)%Z -> nearest_double s (dec_value s n (- k)) (f_of_dec s n k).
Proof.
  intros N. unfold dec_value. destruct n as [|p|p]; [| |lia].
  - cbn [f_of_dec]. replace ((if s then -1 else 1) * (IZR 0 * powerRZ 10 (- k))) with 0 by (cbn; ring). split; intros B.
    + split; [split; reflexivity|]. split; [rewrite rnd_0; reflexivity|reflexivity].
    + exfalso. rewrite rnd_0, Rabs_R0 in B. assert (0 < big) by apply bpow_gt_0. lra.
  - unfold f_of_dec. destruct (Z.leb_spec 0 k) as [L|L].
    + assert (PK : (0 < 10 ^ k)%Z) by (apply Z.pow_pos_nonneg; lia). destruct (10 ^ k)%Z as [|q|q] eqn:E; try lia.
      assert (EP : powerRZ 10 (- k) = / IZR (Z.pos q)).
      { rewrite <- E. rewrite powerRZ_neg'. f_equal. rewrite <- (Z2Nat.id k) at 1 by exact L. rewrite <- pow_powerRZ. rewrite pow_IZR, Z2Nat.id by exact L. reflexivity. }
      rewrite EP. apply frac_correct.
    + assert (PK : (0 < Z.pos p * 10 ^ (- k))%Z) by (apply Z.mul_pos_pos; [lia|apply Z.pow_pos_nonneg; lia]). destruct (Z.pos p * 10 ^ (- k))%Z as [|q|q] eqn:E; try lia.
      assert (EP : IZR (Z.pos p) * powerRZ 10 (- k) = IZR (Z.pos q) / IZR 1).
      { rewrite <- E, mult_IZR. unfold Rdiv. rewrite Rinv_1, Rmult_1_r. f_equal. rewrite <- (Z2Nat.id (- k)) at 1 by lia. rewrite <- pow_powerRZ. rewrite pow_IZR, Z2Nat.id by lia. reflexivity. }
      rewrite EP. apply frac_correct.
Qed.
Lemma decimal_nonneg w neg n e : decimal_text w neg n e -> (0 <= n)%Z.
Proof.
  intros (p & sg & ip & fr & ex & q & a & ka & b & kb & x & _ & _ & _ & _ & DI & FR & _ & _ & -> & _).
  assert (G : forall t m k, digits t m k -> (0 <= m)%Z) by (induction 1 as [|? ? ? ? ? ? ? (D & _)]; lia).
  assert (0 <= b)%Z by (destruct FR as [(_ & -> & _)|(fp & _ & D)]; [lia|eauto]). apply G in DI. pose proof (pow10_pos kb). nia.
Qed.
Lemma nearest_unique neg r x y : nearest_double neg r x -> nearest_double neg r y -> x = y.
Proof.
  intros (A1 & A2) (B1 & B2). destruct (Rlt_or_le (Rabs (rnd r)) big) as [L|L].
  - destruct (A1 L) as (F1 & V1 & S1). destruct (B1 L) as (F2 & V2 & S2). destruct (fin_B x F1) as (bx & <- & X1 & X2). destruct (fin_B y F2) as (by' & <- & Y1 & Y2).
    f_equal. apply B2R_Bsign_inj; auto; [|].
    + rewrite X2, Y2, V1, V2. reflexivity.
    + rewrite <- S2 in S1. clear - S1 X1 Y1. destruct bx, by'; cbn [is_finite] in X1, Y1; try discriminate; exact S1.
  - rewrite (A2 L), (B2 L). reflexivity.
Qed.

(** ---- numbers in file names ---- *)
Local Open Scope Z_scope.
Lemma dec_rev_last fuel : forall n, 1 <= n < 10 ^ Z.of_nat fuel -> exists l d, dec_rev fuel n = l ++ [d] /\ 1 <= d <= 9.
Proof.
  induction fuel as [|f IH]; intros n H; [cbn in H; lia|]. cbn [dec_rev]. destruct (Z.ltb_spec n 10) as [L|L]; [exists [], n; split; [reflexivity|lia]|].
  rewrite Nat2Z.inj_succ, Z.pow_succ_r in H by lia. destruct (IH (n / 10)) as (l & d & -> & D).
  - split; [apply Z.div_le_lower_bound; lia|apply Z.div_lt_upper_bound; lia].
  - exists (n mod 10 :: l), d. split; [reflexivity|exact D].
Qed.
Lemma digit_char_nonzero d : 1 <= d <= 9 -> digit_char d <> "0"%char.
Proof. intros H. assert (D : d = 1 \/ d = 2 \/ d = 3 \/ d = 4 \/ d = 5 \/ d = 6 \/ d = 7 \/ d = 8 \/ d = 9) by lia. intuition subst; discriminate. Qed.
Lemma print_nat_shortest n : 0 <= n -> exists k, digits (print_nat n) n k /\ (0 < k)%nat /\ (k = 1%nat \/ hd_error (print_nat n) <> Some "0"%char).
Proof.
  intros H. set (f := S (Z.to_nat (Z.log2 n))). assert (F : n < 10 ^ Z.of_nat f) by now apply fuel_enough.
  unfold print_nat. fold f. exists (length (rev (dec_rev f n))).
  assert (V : digits_val (rev (dec_rev f n)) = n) by (apply dec_rev_val; lia).
  split; [|split].
  - rewrite <- V at 2. apply ds_digits. apply Forall_rev, dec_rev_digits, H.
  - rewrite rev_length. pose proof (dec_rev_nonempty (Z.to_nat (Z.log2 n)) n). fold f in H0. destruct (dec_rev f n); [congruence|cbn; lia].
  - destruct (Z.eq_dec n 0) as [->|N]; [left; reflexivity|]. right. destruct (dec_rev_last f n) as (l & d & -> & D); [lia|]. rewrite rev_app_distr. cbn.
    intros E. injection E as E. now apply (digit_char_nonzero d D).
Qed.
Lemma percent_rest f : forall t n, ~ In "%"%char t -> (length t < f)%nat -> percent_aux f t n true = Ok t.
Proof.
  induction f as [|f IH]; intros t n N L; [lia|]. destruct t as [|c r]; [reflexivity|]. cbn [percent_aux].
  assert (C : aeqb c "%" = false). { unfold aeqb. destruct (ascii_dec c "%") as [->|]; [elim N; now left|reflexivity]. }
  rewrite C, IH; [reflexivity| |cbn in L; lia]. intros I. apply N. now right.
Qed.
Lemma pct_width_ds ds : forall w r, Forall isd ds -> head_not_digit r -> pct_width (map digit_char ds ++ r) w = (fold_left (fun a d => 10 * a + d) ds w, r).
Proof.
  induction ds as [|d ds IH]; intros w r D N; cbn [map app].
  - cbn [fold_left]. destruct r as [|c r]; [reflexivity|]. cbn [pct_width]. cbn in N. now rewrite N.
  - inversion D; subst. cbn [pct_width fold_left]. rewrite is_digit_char, digit_val_char by assumption. now apply IH.
Qed.
Lemma digits_digits_width t n k r : digits t n k -> head_not_digit r -> pct_width (t ++ r) 0 = (n, r).
Proof.
  intros H N. destruct (digits_ds _ _ _ H) as (ds & -> & D & <- & _). rewrite pct_width_ds by assumption. reflexivity.
Qed.
Lemma percent_at f : forall pre (zeros : bool) wd w k post n,
  ~ In "%"%char pre -> ~ In "%"%char post -> digits wd w k -> (zeros = false -> hd_error wd <> Some "0"%char) ->
  (length (pre ++ "%"%char :: (if zeros then txt "0" else []) ++ wd ++ "d"%char :: post) < f)%nat ->
  exists t, percent_aux f (pre ++ "%"%char :: (if zeros then txt "0" else []) ++ wd ++ "d"%char :: post) n false = Ok (pre ++ t ++ post) /\ numeral_text zeros w n t.
Proof.
  induction f as [|f IH]; intros pre zeros wd w k post n N1 N2 D Z0 L; [lia|]. destruct pre as [|c pre]; cycle 1.
  { cbn [app percent_aux]. assert (C : aeqb c "%" = false). { unfold aeqb. destruct (ascii_dec c "%") as [->|]; [elim N1; now left|reflexivity]. }
    rewrite C. destruct (IH pre zeros wd w k post n) as (t & E & T); auto; [intros I; apply N1; now right|cbn in L; cbn; lia|].
    exists t. rewrite E. split; [reflexivity|exact T]. }
  clear N1. cbn [app] in L |- *. set (s := (if zeros then txt "0" else []) ++ wd ++ "d"%char :: post) in *.
  assert (W : pct_width s 0 = (w, "d"%char :: post)).
  { unfold s. destruct zeros; cbn [app txt]; [|now apply (digits_digits_width wd w k)].
    change (txt "0" ++ wd ++ "d"%char :: post) with ((["0"%char] ++ wd) ++ "d"%char :: post). destruct (digits_ds _ _ _ D) as (ds & -> & DD & V & _).
    change (["0"%char] ++ map digit_char ds) with (map digit_char (0 :: ds)). rewrite pct_width_ds; [|constructor; [unfold isd; lia|exact DD]|reflexivity].
    cbn [fold_left]. change (10 * 0 + 0) with 0. rewrite <- V. reflexivity. }
  assert (S0 : exists c2 r2, s = c2 :: r2 /\ aeqb c2 "%" = false /\ aeqb c2 "0" = zeros).
  { unfold s. destruct zeros; [cbn; eauto|]. cbn [app]. destruct wd as [|c2 r2]; [cbn; eauto|]. exists c2, (r2 ++ "d"%char :: post). split; [reflexivity|].
    destruct (digits_ds _ _ _ D) as (ds & E & DD & _). destruct ds as [|d ds]; [discriminate|]. injection E as -> _. inversion DD; subst. split.
    - unfold isd in H1. assert (Q : d = 0 \/ d = 1 \/ d = 2 \/ d = 3 \/ d = 4 \/ d = 5 \/ d = 6 \/ d = 7 \/ d = 8 \/ d = 9) by lia. intuition subst; reflexivity.
    - specialize (Z0 eq_refl). cbn in Z0. unfold aeqb. destruct (ascii_dec (digit_char d) "0") as [E|]; [rewrite E in Z0; congruence|reflexivity]. }
  destruct S0 as (c2 & r2 & E & A1 & A2). cbn [percent_aux]. change (aeqb "%" "%") with true. cbv iota. rewrite E. rewrite A1. rewrite <- E, W, A2.
  change (aeqb "d" "d") with true. cbv iota. rewrite (percent_rest f post n N2).
  2:{ assert (length s = length (if zeros then txt "0" else []) + (length wd + S (length post)))%nat by (unfold s; now rewrite !app_length). cbn in L. lia. }
  cbn [bind]. set (body := print_nat (Z.abs n)). set (sg := if n <? 0 then ["-"%char] else []).
  destruct (print_nat_shortest (Z.abs n) ltac:(lia)) as (kk & K1 & K2 & K3). fold body in K1, K3.
  assert (SH : shortest n sg body) by (split; [unfold sg; destruct (n <? 0); reflexivity|exists kk; auto]).
  exists (if zeros then sg ++ repeat "0"%char (Z.to_nat w - length (sg ++ body)) ++ body else repeat sp (Z.to_nat w - length (sg ++ body)) ++ sg ++ body).
  split; [reflexivity|]. exists sg, body, (repeat (if zeros then "0"%char else sp) (Z.to_nat w - length (sg ++ body))).
  split; [exact SH|]. split; [destruct zeros; reflexivity|]. split; [|apply repeat_length].
  apply Forall_forall. intros x I. apply repeat_spec in I. subst x. destruct zeros; reflexivity.
Qed.
(** a padded numeral is the text of its number *)
Lemma digits_zeros p : Forall (fun c => c = "0"%char) p -> digits p 0 (length p).
Proof.
  intros H. rewrite <- (rev_involutive p). apply Forall_rev in H. induction (rev p) as [|c l IH]; [constructor|]. inversion H; subst. cbn [rev]. rewrite app_length. cbn.
  rewrite Nat.add_1_r. change 0 with (10 * 0 + 0). constructor; [now apply IH|]. split; [lia|reflexivity].
Qed.
Lemma digits_app a ka b n kb : digits a 0 ka -> digits b n kb -> digits (a ++ b) n (ka + kb).
Proof.
  intros A B. induction B as [|t n k c d B IH D]; [rewrite app_nil_r, Nat.add_0_r; exact A|]. rewrite app_assoc, Nat.add_succ_r. now constructor.
Qed.
Lemma numeral_integer zeros w z t : numeral_text zeros w z t -> integer_text t z.
Proof.
  intros (sg & d & p & (E & k & D & K & _) & T & P & L).
  assert (G : signed sg (z <? 0)) by (subst sg; unfold signed; destruct (z <? 0); auto).
  assert (Zn : z = if z <? 0 then - Z.abs z else Z.abs z) by (destruct (Z.ltb_spec z 0); lia). clear E.
  destruct zeros; subst t.
  - exists [], sg, (p ++ d), [], (z <? 0), (Z.abs z), (length p + k)%nat. rewrite app_nil_r. split; [reflexivity|]. split; [constructor|]. split; [constructor|]. split; [exact G|].
    split; [apply digits_app; [now apply digits_zeros|exact D]|]. split; [lia|exact Zn].
  - exists p, sg, d, [], (z <? 0), (Z.abs z), k. rewrite app_nil_r. split; [reflexivity|]. split; [apply Forall_forall; intros c I; rewrite Forall_forall in P; rewrite (P c I); cbn; tauto|].
    split; [constructor|]. auto.
Qed.
