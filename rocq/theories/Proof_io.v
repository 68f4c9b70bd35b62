(** Round trip of target files. *)
From Coq Require Import Reals Psatz.
From Flocq Require Import Core.Core IEEE754.BinarySingleNaN.
From Verif Require Import F64 F64R Model_text Proof_text Proof_text2 Model_corr Model_track Model_io Spec_io Base.
Local Open Scope Z_scope.

(** ---- numbers ---- *)
Lemma back_digits k x : float_ok x -> to_digits k x (read_back k x).
Proof.
  intros [->|[[s ->]|F]]; [left; split; reflexivity|right; left; exists s; split; reflexivity|]. right. right.
  destruct (back_correct k x F) as (B1 & B2 & B3). pose proof (dec_half k x F) as H. pose proof (pow10_gt k) as P. unfold pow10 in *.
  split; [exact F|]. split; [exact B1|]. pose proof (val_sign x (fin_isfin _ F)) as S1. pose proof (val_sign _ (fin_isfin _ B1)) as S2. rewrite B3, B2 in S2.
  exists (if fsign x then - scaled k x else scaled k x). destruct (fsign x).
  - rewrite opp_IZR. split.
    + rewrite S1. replace (- Rabs (val x) - - IZR (scaled k x) / IZR (10 ^ Z.of_nat k))%R with (- (Rabs (val x) - IZR (scaled k x) / IZR (10 ^ Z.of_nat k)))%R by (field; lra).
      rewrite Rabs_Ropp. exact H.
    + rewrite S2. replace (- IZR (scaled k x) / IZR (10 ^ Z.of_nat k))%R with (- (IZR (scaled k x) / IZR (10 ^ Z.of_nat k)))%R by (field; lra). now rewrite rnd_opp.
  - split; [rewrite S1; exact H|exact S2].
Qed.

Lemma trunc_int x z : isfin x -> val x = IZR z -> trunc x = Some z.
Proof.
  intros F V. destruct x as [s|s| |s m e]; try discriminate.
  - unfold val in V. cbn in V. apply eq_IZR in V. subst z. reflexivity.
  - assert (A : (IZR (Zpos m) * bpow radix2 e = IZR (Z.abs z))%R). { rewrite <- val_abs with (s := s). rewrite V. symmetry. apply abs_IZR. }
    pose proof (val_sign (S754_finite s m e) F) as S. rewrite val_abs, A, V in S. cbn [fsign] in S.
    assert (Z1 : z = if s then - Z.abs z else Z.abs z). { apply eq_IZR. rewrite S. destruct s; [now rewrite opp_IZR|reflexivity]. }
    cbn [trunc]. f_equal. rewrite Z1 at 1. destruct (Z.leb_spec 0 e) as [L|L].
    + rewrite bpow_IZR in A by assumption. rewrite <- mult_IZR in A. apply eq_IZR in A. now rewrite A.
    + assert (E : Zpos m = Z.abs z * 2 ^ (- e)).
      { apply eq_IZR. rewrite mult_IZR, <- A, <- bpow_IZR by lia. rewrite Rmult_assoc, <- bpow_plus. replace (e + - e) with 0 by lia. cbn. ring. }
      assert (Q : 0 < 2 ^ (- e)) by (apply Z.pow_pos_nonneg; lia). rewrite E, Z.div_mul by lia. reflexivity.
Qed.
Lemma float_int_exact z : exact_int z -> float_int z = z.
Proof. intros H. unfold float_int. destruct (f_of_Z_exact z H) as (F & V). rewrite (trunc_int _ z (fin_isfin _ F) V). reflexivity. Qed.

(** ---- words of stripped lines ---- *)
Definition spaces (t : text) : Prop := Forall (fun c => is_space c = true) t.
Lemma drop_space_split t : exists s, t = s ++ drop_space t /\ spaces s.
Proof.
  induction t as [|c t (s & E & S)]; [exists []; split; [reflexivity|constructor]|]. cbn [drop_space]. destruct (is_space c) eqn:C.
  - exists (c :: s). split; [cbn; now rewrite <- E|]. constructor; assumption.
  - exists []. split; [reflexivity|constructor].
Qed.
Lemma words_lead s t : spaces s -> words (s ++ t) = words t.
Proof. intros H. induction H as [|c s C H IH]; [reflexivity|]. cbn [app]. rewrite split_space by assumption. exact IH. Qed.
Lemma words_trail_aux t s cur : spaces s -> split_aux (t ++ s) cur = split_aux t cur.
Proof.
  intros H. revert cur. induction t as [|c t IH]; intros cur.
  - cbn [app]. revert cur. induction H as [|c s C H IH]; intros cur; [reflexivity|]. cbn [split_aux]. rewrite C. destruct cur as [|a cur]; [apply IH|].
    rewrite IH. reflexivity.
  - cbn [app split_aux]. destruct (is_space c); [destruct cur|]; now rewrite IH.
Qed.
Lemma words_strip t : words (strip t) = words t.
Proof.
  unfold strip. destruct (drop_space_split t) as (s & E & S). destruct (drop_space_split (rev (drop_space t))) as (s2 & E2 & S2).
  assert (W1 : words t = words (drop_space t)) by (rewrite E at 1; now apply words_lead).
  assert (E3 : drop_space t = rev (drop_space (rev (drop_space t))) ++ rev s2) by (rewrite <- rev_app_distr, <- E2; symmetry; apply rev_involutive).
  rewrite W1. rewrite E3 at 2. unfold words. symmetry. apply words_trail_aux. now apply Forall_rev'.
Qed.

(** ---- one row ---- *)
Definition back_target (t : target) : target :=
  mk_target (t_pnr t) (read_back 4 (t_x t)) (read_back 4 (t_y t)) (t_n t) (t_nx t) (t_ny t) (t_sumg t) (t_tnr t).
Lemma row_noline t : noline (target_row t).
Proof.
  unfold target_row. repeat first [apply noline_pad; apply print_int_word|apply noline_pad; apply print_fixed_word|
    apply noline_app|(constructor; [discriminate|])].
Qed.
Lemma parse_row t : target_ok t -> parse_target (target_row t) = Ok (back_target t).
Proof.
  intros (H1 & H2 & H3 & H4 & H5 & H6 & _). unfold parse_target. rewrite words_strip. unfold target_row. rewrite !float_int_exact by assumption.
  rewrite !split_pad_space by (apply print_int_word || apply print_fixed_word). rewrite split_pad by apply print_int_word.
  rewrite !parse_print_int, !parse_print_fixed. reflexivity.
Qed.
Lemma back_ok k x : float_ok x -> float_ok (read_back k x).
Proof. intros [->|[[s ->]|F]]; [left; reflexivity|right; left; now exists s|right; right; now apply back_correct]. Qed.
Lemma back_same t : target_ok t -> same_target 4 t (back_target t).
Proof. intros (_ & _ & _ & _ & _ & _ & X & Y). unfold same_target. cbn. repeat (split; [reflexivity|]). split; now apply back_digits. Qed.
Lemma back_row t : target_ok t -> target_row (back_target t) = target_row t.
Proof. intros (_ & _ & _ & _ & _ & _ & X & Y). unfold target_row. cbn. now rewrite !print_stable. Qed.
Lemma rows_of ts k ls : Forall target_ok ts -> (k <= length ts)%nat ->
  read_rows k (map target_row ts ++ ls) = Ok (map back_target (firstn k ts)).
Proof.
  intros H. revert k. induction H as [|t ts T H IH]; intros k L.
  - cbn in L. replace k with O by lia. reflexivity.
  - destruct k as [|k]; [reflexivity|]. cbn [map app read_rows readline firstn]. rewrite parse_row by assumption. cbn [bind]. rewrite IH by (cbn in L; lia). reflexivity.
Qed.
Lemma targets_lines ts num : lines (targets_text ts num) = print_int num :: map target_row ts.
Proof.
  unfold targets_text, line. rewrite <- app_assoc. cbn [app]. rewrite lines_line by (apply nospace_noline, print_int_word). f_equal.
  rewrite <- (lines_flat (map target_row ts)).
  - f_equal. induction ts as [|t ts IH]; [reflexivity|]. cbn [flat_map map]. now rewrite IH.
  - apply Forall_forall. intros l I. apply in_map_iff in I as (t & <- & _). apply row_noline.
Qed.
Lemma put_eq fs n c : put fs n c n = Some c.
Proof. unfold put. now rewrite teqb_refl. Qed.
Lemma put_neq fs n c m : m <> n -> put fs n c m = fs m.
Proof. intros H. unfold put. destruct (teqb_spec m n); [contradiction|reflexivity]. Qed.
Lemma put_put fs n c d m : put (put fs n c) n d m = put fs n d m.
Proof. unfold put. destruct (teqb m n); reflexivity. Qed.

Lemma has_In c t : has c t = true <-> In c t.
Proof.
  unfold has. rewrite existsb_exists. split.
  - intros (x & I & E). destruct (aeqb_spec c x); [now subst|discriminate].
  - intros I. exists c. split; [assumption|]. destruct (aeqb_spec c c); [reflexivity|contradiction].
Qed.
Lemma write_name_plain base n : 0 < n -> ~ In "#"%char base -> In "%"%char base -> write_name base n = read_name base n.
Proof.
  intros N H P. unfold write_name, read_name. destruct (has "#" base) eqn:E; [apply has_In in E; contradiction|]. apply has_In in P. rewrite P.
  destruct (Z.eqb_spec n 0); [lia|]. destruct (Z.gtb_spec n 0); [reflexivity|lia].
Qed.

Theorem targets_round_trip can_write fs ts num base n name :
  0 < n -> ~ In "#"%char base -> In "%"%char base -> read_name base n = Ok name -> can_write name = true ->
  ts <> [] -> Forall target_ok ts -> 0 <= num <= Z.of_nat (length ts) ->
  let '(fs', r) := write_targets can_write fs ts num base n in
  r = Ok true /\ fs' = put fs name (targets_text ts num) /\
  read_targets fs' base n = Ok (map back_target (firstn (Z.to_nat num) ts)).
Proof.
  intros N H P R W NE T NU. unfold write_targets. rewrite write_name_plain, R, W by assumption. destruct ts as [|t ts]; [contradiction|].
  split; [reflexivity|]. split; [reflexivity|]. unfold read_targets. rewrite R. cbn [bind]. rewrite put_eq, targets_lines. cbn [readline].
  rewrite strip_nospace by apply print_int_word. rewrite parse_print_int. cbn [bind]. rewrite <- (app_nil_r (map _ _)). apply rows_of; [assumption|lia].
Qed.
