(** Printing and parsing: numbers, words and lines. *)
From Coq Require Import Reals Psatz.
From Verif Require Import F64 Model_text Base.
Local Open Scope Z_scope.

Lemma aeqb_spec a b : reflect (a = b) (aeqb a b).
Proof. unfold aeqb. destruct (ascii_dec a b); constructor; assumption. Qed.
Lemma aeqb_neq a b : a <> b -> aeqb a b = false.
Proof. unfold aeqb. destruct (ascii_dec a b); [contradiction|reflexivity]. Qed.
Lemma teqb_spec a b : reflect (a = b) (teqb a b).
Proof. unfold teqb. destruct (list_eq_dec ascii_dec a b); constructor; assumption. Qed.
Lemma teqb_refl a : teqb a a = true.
Proof. destruct (teqb_spec a a); [reflexivity|contradiction]. Qed.

(** ---- digits ---- *)
Definition isd (d : Z) : Prop := 0 <= d <= 9.
Lemma code_digit d : isd d -> code (digit_char d) = 48 + d.
Proof. intros H. unfold code, digit_char. rewrite nat_ascii_embedding by (unfold isd in H; lia). unfold isd in H; lia. Qed.
Lemma is_digit_char d : isd d -> is_digit (digit_char d) = true.
Proof. intros H. unfold is_digit. rewrite code_digit by assumption. unfold isd in H. lia. Qed.
Lemma digit_val_char d : isd d -> digit_val (digit_char d) = d.
Proof. intros H. unfold digit_val. rewrite code_digit by assumption. lia. Qed.
Lemma not_digit_code c : is_digit c = false <-> code c < 48 \/ 57 < code c.
Proof. unfold is_digit. lia. Qed.

Lemma digits_val_app a b : digits_val (a ++ b) = digits_val a * 10 ^ Z.of_nat (length b) + digits_val b.
Proof.
  unfold digits_val. rewrite fold_left_app. generalize (fold_left (fun x d => 10 * x + d) a 0). induction b as [|d b IH] using rev_ind; intros n.
  - cbn. lia.
  - rewrite !fold_left_app, app_length. cbn [fold_left length]. rewrite IH. replace (Z.of_nat (length b + 1)) with (Z.of_nat (length b) + 1) by lia.
    rewrite Z.pow_add_r by lia. lia.
Qed.
Lemma digits_val_snoc a d : digits_val (a ++ [d]) = 10 * digits_val a + d.
Proof. rewrite digits_val_app. change (digits_val [d]) with (10 * 0 + d). change (10 ^ Z.of_nat (length [d])) with 10. lia. Qed.

Lemma dec_rev_digits fuel n : 0 <= n -> Forall isd (dec_rev fuel n).
Proof.
  revert n. induction fuel as [|f IH]; intros n H; cbn [dec_rev]; [constructor|]. destruct (Z.ltb_spec n 10) as [L|L].
  - constructor; [unfold isd; lia|constructor].
  - constructor; [unfold isd; pose proof (Z.mod_pos_bound n 10); lia|]. apply IH. apply Z.div_pos; lia.
Qed.
Lemma dec_rev_val fuel n : 0 <= n < 10 ^ Z.of_nat fuel -> digits_val (rev (dec_rev fuel n)) = n.
Proof.
  revert n. induction fuel as [|f IH]; intros n H; cbn [dec_rev].
  - cbn in H. cbn. lia.
  - destruct (Z.ltb_spec n 10) as [L|L]; [cbn; unfold digits_val; cbn; lia|]. cbn [rev]. rewrite digits_val_snoc, IH.
    + pose proof (Z.div_mod n 10). lia.
    + rewrite Nat2Z.inj_succ, Z.pow_succ_r in H by lia. split; [apply Z.div_pos; lia|]. apply Z.div_lt_upper_bound; lia.
Qed.
Lemma dec_rev_nonempty f n : dec_rev (S f) n <> [].
Proof. cbn [dec_rev]. destruct (n <? 10); discriminate. Qed.
Lemma fuel_enough n : 0 <= n -> n < 10 ^ Z.of_nat (S (Z.to_nat (Z.log2 n))).
Proof.
  intros H. rewrite Nat2Z.inj_succ, Z2Nat.id by apply Z.log2_nonneg. destruct (Z.eq_dec n 0) as [->|N]; [reflexivity|].
  pose proof (Z.log2_spec n). apply Z.lt_le_trans with (2 ^ Z.succ (Z.log2 n)); [lia|]. apply Z.pow_le_mono_l. lia.
Qed.
Lemma fix_rev_digits k n : Forall isd (fix_rev k n).
Proof. revert n. induction k as [|k IH]; intros n; cbn [fix_rev]; constructor; [|apply IH]. unfold isd. pose proof (Z.mod_pos_bound n 10). lia. Qed.
Lemma fix_rev_length k n : length (fix_rev k n) = k.
Proof. revert n. induction k as [|k IH]; intros n; cbn [fix_rev length]; [reflexivity|]. now rewrite IH. Qed.
Lemma fix_rev_val k n : 0 <= n < 10 ^ Z.of_nat k -> digits_val (rev (fix_rev k n)) = n.
Proof.
  revert n. induction k as [|k IH]; intros n H; cbn [fix_rev]; [cbn in H; cbn; lia|]. cbn [rev]. rewrite digits_val_snoc, IH.
  - pose proof (Z.div_mod n 10). lia.
  - rewrite Nat2Z.inj_succ, Z.pow_succ_r in H by lia. split; [apply Z.div_pos; lia|]. apply Z.div_lt_upper_bound; lia.
Qed.

(** digits as text *)
Definition head_not_digit (t : text) : Prop := match t with c :: _ => is_digit c = false | [] => True end.
Lemma span_map ds rest : Forall isd ds -> head_not_digit rest -> span_digits (map digit_char ds ++ rest) = (ds, rest).
Proof.
  intros H N. induction H as [|d ds D H IH]; cbn [map app].
  - destruct rest as [|c r]; [reflexivity|]. cbn [span_digits]. cbn in N. now rewrite N.
  - cbn [span_digits]. rewrite is_digit_char, IH, digit_val_char by assumption. reflexivity.
Qed.
Lemma span_map' ds : Forall isd ds -> span_digits (map digit_char ds) = (ds, []).
Proof. intros H. rewrite <- (app_nil_r (map _ _)). now apply span_map. Qed.

Lemma Forall_rev' {A} (P : A -> Prop) l : Forall P l -> Forall P (rev l).
Proof. intros H. apply Forall_forall. intros x I. apply in_rev in I. rewrite Forall_forall in H. now apply H. Qed.

(** ---- words: texts without white space ---- *)
Definition nospace (t : text) : Prop := Forall (fun c => is_space c = false) t.
Definition word (t : text) : Prop := t <> [] /\ nospace t.
Lemma nospace_app a b : nospace a -> nospace b -> nospace (a ++ b).
Proof. intros A B. apply Forall_app. now split. Qed.
Lemma digit_nospace d : isd d -> is_space (digit_char d) = false.
Proof. intros H. unfold is_space. rewrite code_digit by assumption. unfold isd in H. lia. Qed.
Lemma digits_nospace ds : Forall isd ds -> nospace (map digit_char ds).
Proof. intros H. induction H; constructor; [now apply digit_nospace|assumption]. Qed.
Lemma drop_nospace t : nospace t -> drop_space t = t.
Proof. intros H. destruct H as [|c t E H]; [reflexivity|]. cbn [drop_space]. now rewrite E. Qed.
Lemma strip_nospace t : nospace t -> strip t = t.
Proof. intros H. unfold strip. rewrite (drop_nospace t) by assumption. rewrite drop_nospace by now apply Forall_rev'. apply rev_involutive. Qed.

Lemma split_word_aux w cur rest : nospace w -> split_aux (w ++ rest) cur = split_aux rest (rev w ++ cur).
Proof.
  intros H. revert cur. induction H as [|c w E H IH]; intros cur; [reflexivity|]. cbn [app split_aux]. rewrite E, IH. cbn [rev]. now rewrite <- app_assoc.
Qed.
Lemma rev_nonempty {A} (w : list A) : w <> [] -> exists c r, rev w = c :: r.
Proof. intros H. destruct (rev w) as [|c r] eqn:E; [|now exists c, r]. exfalso. apply H. rewrite <- (rev_involutive w), E. reflexivity. Qed.
Lemma split_word w : word w -> words w = [w].
Proof.
  intros (N & H). unfold words. rewrite <- (app_nil_r w) at 1. rewrite split_word_aux by assumption. rewrite app_nil_r. cbn [split_aux].
  destruct (rev_nonempty w N) as (c & r & E). rewrite E. rewrite <- E, rev_involutive. reflexivity.
Qed.
Lemma split_word_space w c rest : word w -> is_space c = true -> words (w ++ c :: rest) = w :: words rest.
Proof.
  intros (N & H) S. unfold words. rewrite split_word_aux by assumption. rewrite app_nil_r. cbn [split_aux]. rewrite S.
  destruct (rev_nonempty w N) as (c' & r & E). rewrite E. rewrite <- E, rev_involutive. reflexivity.
Qed.
Lemma split_space c rest : is_space c = true -> words (c :: rest) = words rest.
Proof. intros S. unfold words. cbn [split_aux]. now rewrite S. Qed.
Lemma split_spaces n rest : words (repeat sp n ++ rest) = words rest.
Proof. induction n as [|n IH]; [reflexivity|]. cbn [repeat app]. rewrite split_space by reflexivity. exact IH. Qed.
Lemma split_pad w t : word t -> words (pad w t) = [t].
Proof. intros H. unfold pad. rewrite split_spaces. now apply split_word. Qed.
Lemma split_pad_space w t rest : word t -> words (pad w t ++ sp :: rest) = t :: words rest.
Proof. intros H. unfold pad. rewrite <- app_assoc, split_spaces. now apply split_word_space. Qed.

(** ---- lines ---- *)
Definition noline (t : text) : Prop := Forall (fun c => c <> nl) t.
Lemma noline_app a b : noline a -> noline b -> noline (a ++ b).
Proof. intros A B. apply Forall_app. now split. Qed.
Lemma nospace_noline t : nospace t -> noline t.
Proof. intros H. eapply Forall_impl; [|exact H]. intros c E ->. discriminate. Qed.
Lemma noline_spaces n : noline (repeat sp n).
Proof. induction n; constructor; [discriminate|assumption]. Qed.
Lemma noline_pad w t : nospace t -> noline (pad w t).
Proof. intros H. apply noline_app; [apply noline_spaces|now apply nospace_noline]. Qed.
Lemma lines_aux_app w cur rest : noline w -> lines_aux (w ++ rest) cur = lines_aux rest (rev w ++ cur).
Proof.
  intros H. revert cur. induction H as [|c w E H IH]; intros cur; [reflexivity|]. cbn [app lines_aux]. rewrite aeqb_neq, IH by assumption. cbn [rev]. now rewrite <- app_assoc.
Qed.
Lemma lines_line w rest : noline w -> lines (w ++ nl :: rest) = w :: lines rest.
Proof.
  intros H. unfold lines. rewrite lines_aux_app by assumption. cbn [lines_aux]. destruct (aeqb_spec nl nl); [|contradiction]. now rewrite app_nil_r, rev_involutive.
Qed.
Lemma lines_last w : noline w -> w <> [] -> lines w = [w].
Proof.
  intros H N. unfold lines. rewrite <- (app_nil_r w) at 1. rewrite lines_aux_app by assumption. rewrite app_nil_r. cbn [lines_aux].
  destruct (rev_nonempty w N) as (c & r & E). rewrite E. rewrite <- E, rev_involutive. reflexivity.
Qed.
Lemma lines_nil : lines [] = []. Proof. reflexivity. Qed.
(** a file made of lines *)
Lemma lines_flat ls : Forall noline ls -> lines (flat_map (fun l => l ++ [nl]) ls) = ls.
Proof.
  intros H. induction H as [|l ls N H IH]; [reflexivity|]. cbn [flat_map]. rewrite <- app_assoc. cbn [app]. rewrite lines_line by assumption. now rewrite IH.
Qed.
Lemma lines_flat_app ls rest : Forall noline ls -> lines (flat_map (fun l => l ++ [nl]) ls ++ rest) = ls ++ lines rest.
Proof.
  intros H. induction H as [|l ls N H IH]; [reflexivity|]. cbn [flat_map]. rewrite <- !app_assoc. cbn [app]. rewrite lines_line by assumption. now rewrite IH.
Qed.

(** ---- integers ---- *)
Lemma print_nat_digits n : 0 <= n -> exists ds, print_nat n = map digit_char ds /\ Forall isd ds /\ ds <> [] /\ digits_val ds = n.
Proof.
  intros H. exists (rev (dec_rev (S (Z.to_nat (Z.log2 n))) n)). split; [reflexivity|]. split; [now apply Forall_rev', dec_rev_digits|]. split.
  - intros E. apply (f_equal (@rev Z)) in E. rewrite rev_involutive in E. now apply dec_rev_nonempty in E.
  - apply dec_rev_val. split; [assumption|]. now apply fuel_enough.
Qed.
Lemma print_fix_digits k n : 0 <= n < 10 ^ Z.of_nat k -> exists ds, print_fix k n = map digit_char ds /\ Forall isd ds /\ length ds = k /\ digits_val ds = n.
Proof.
  intros H. exists (rev (fix_rev k n)). split; [reflexivity|]. split; [apply Forall_rev', fix_rev_digits|]. split; [now rewrite rev_length, fix_rev_length|]. now apply fix_rev_val.
Qed.
Lemma map_nonempty {A B} (f : A -> B) l : l <> [] -> map f l <> [].
Proof. destruct l; [contradiction|discriminate]. Qed.
Lemma print_nat_word n : 0 <= n -> word (print_nat n).
Proof. intros H. destruct (print_nat_digits n H) as (ds & -> & D & N & _). split; [now apply map_nonempty|now apply digits_nospace]. Qed.
Lemma print_int_word z : word (print_int z).
Proof.
  unfold print_int. destruct (Z.ltb_spec z 0) as [L|L]; [|now apply print_nat_word].
  split; [discriminate|]. constructor; [reflexivity|]. apply print_nat_word. lia.
Qed.
Lemma digit_not_minus d : isd d -> aeqb (digit_char d) "-" = false /\ aeqb (digit_char d) "+" = false /\ aeqb (digit_char d) "." = false.
Proof.
  intros H. assert (C1 : code "-" = 45) by reflexivity. assert (C2 : code "+" = 43) by reflexivity. assert (C3 : code "." = 46) by reflexivity.
  repeat split; apply aeqb_neq; intros E; apply (f_equal code) in E; rewrite code_digit in E by assumption; unfold isd in H; lia.
Qed.
Lemma sign_digits ds rest : Forall isd ds -> ds <> [] -> take_sign (map digit_char ds ++ rest) = (false, map digit_char ds ++ rest).
Proof.
  intros H N. destruct H as [|d ds D H]; [contradiction|]. cbn [map app take_sign]. destruct (digit_not_minus d D) as (-> & -> & _). reflexivity.
Qed.
Theorem parse_print_int z : parse_int (print_int z) = Ok z.
Proof.
  unfold parse_int. rewrite strip_nospace by apply print_int_word. unfold print_int. destruct (Z.ltb_spec z 0) as [L|L].
  - destruct (print_nat_digits (- z)) as (ds & E & D & N & V); [lia|]. rewrite E. cbn [take_sign]. change (aeqb "-" "-") with true. cbv iota.
    rewrite span_map' by assumption. destruct ds as [|d ds]; [contradiction|]. rewrite V. f_equal. lia.
  - destruct (print_nat_digits z) as (ds & E & D & N & V); [lia|]. rewrite E. rewrite <- (app_nil_r (map _ _)), sign_digits by assumption.
    rewrite app_nil_r, span_map' by assumption. destruct ds as [|d ds]; [contradiction|]. now rewrite V.
Qed.
Lemma print_int_inj a b : print_int a = print_int b -> a = b.
Proof. intros H. pose proof (parse_print_int a) as A. rewrite H, parse_print_int in A. congruence. Qed.

(** ---- fixed-point numbers ---- *)
Lemma pow10_pos k : 0 < 10 ^ Z.of_nat k. Proof. apply Z.pow_pos_nonneg; lia. Qed.
Lemma rhe_nonneg a b : 0 <= a -> 0 < b -> 0 <= rhe a b.
Proof.
  intros A B. unfold rhe. pose proof (Z.div_pos a b A B). destruct (_ ?= _); try lia. destruct (Z.even _); lia.
Qed.
Lemma scaled_nonneg k x : 0 <= scaled k x.
Proof.
  destruct x as [s|s| |s m e]; cbn [scaled]; try lia. pose proof (pow10_pos k). destruct (Z.leb_spec 0 e) as [L|L].
  - pose proof (Z.pow_nonneg 2 e). nia.
  - apply rhe_nonneg; [nia|]. apply Z.pow_pos_nonneg; lia.
Qed.
(** the number read back *)
Definition read_back (k : nat) (x : f64) : f64 :=
  match x with
  | S754_nan => S754_nan
  | S754_infinity s => S754_infinity s
  | _ => f_of_dec (fsign x) (scaled k x) (Z.of_nat k)
  end.
Definition finite_body (k : nat) (q : Z) : text := print_nat (q / 10 ^ Z.of_nat k) ++ "."%char :: print_fix k (q mod 10 ^ Z.of_nat k).
Lemma body_digits k q : 0 <= q -> exists d1 d2, finite_body k q = map digit_char d1 ++ "."%char :: map digit_char d2 /\
  Forall isd d1 /\ Forall isd d2 /\ d1 <> [] /\ length d2 = k /\ digits_val (d1 ++ d2) = q.
Proof.
  intros Q. pose proof (pow10_pos k) as P. destruct (print_nat_digits (q / 10 ^ Z.of_nat k)) as (d1 & E1 & D1 & N1 & V1); [apply Z.div_pos; lia|].
  destruct (print_fix_digits k (q mod 10 ^ Z.of_nat k)) as (d2 & E2 & D2 & N2 & V2); [apply Z.mod_pos_bound; lia|].
  exists d1, d2. unfold finite_body. rewrite E1, E2. repeat (split; [first [reflexivity|assumption]|]).
  rewrite digits_val_app, V1, V2, N2. pose proof (Z.div_mod q (10 ^ Z.of_nat k)). lia.
Qed.
Lemma body_word k q : 0 <= q -> word (finite_body k q).
Proof.
  intros Q. destruct (body_digits k q Q) as (d1 & d2 & -> & D1 & D2 & N1 & _). split; [destruct d1; [contradiction|discriminate]|].
  apply nospace_app; [now apply digits_nospace|]. constructor; [reflexivity|now apply digits_nospace].
Qed.
Lemma print_fixed_finite k x : is_nan x = false -> (forall s, x <> S754_infinity s) -> print_fixed k x = (if fsign x then ["-"%char] else []) ++ finite_body k (scaled k x).
Proof. intros N I. destruct x as [s|s| |s m e]; try discriminate; try reflexivity. exfalso. now apply (I s). Qed.
Lemma print_fixed_word k x : word (print_fixed k x).
Proof.
  assert (B : forall s q, 0 <= q -> word ((if s : bool then ["-"%char] else []) ++ finite_body k q)).
  { intros s q Q. pose proof (body_word k q Q) as (N & S). destruct s; [|split; assumption]. split; [discriminate|]. constructor; [reflexivity|assumption]. }
  destruct x as [s|s| |s m e].
  - apply (B s 0). lia.
  - destruct s; (split; [discriminate|repeat constructor]).
  - split; [discriminate|repeat constructor].
  - apply (B s). apply scaled_nonneg.
Qed.
Lemma take_sign_body (s : bool) k q : 0 <= q -> take_sign ((if s then ["-"%char] else []) ++ finite_body k q) = (s, finite_body k q).
Proof.
  intros Q. destruct s; [reflexivity|]. cbn [app]. destruct (body_digits k q Q) as (d1 & d2 & -> & D1 & D2 & N1 & _). now apply sign_digits.
Qed.
Lemma body_not_word k q s : 0 <= q -> (exists c r, s = c :: r /\ is_digit c = false) -> finite_body k q <> s.
Proof.
  intros Q (c & r & -> & N) E. destruct (body_digits k q Q) as (d1 & d2 & B & D1 & _ & N1 & _). rewrite B in E. destruct D1 as [|d d1 D D1]; [contradiction|].
  cbn [map app] in E. injection E as E _. subst c. rewrite is_digit_char in N by assumption. discriminate.
Qed.
Lemma parse_body k q (s : bool) : 0 <= q -> parse_float ((if s then ["-"%char] else []) ++ finite_body k q) = Ok (f_of_dec s q (Z.of_nat k)).
Proof.
  intros Q. unfold parse_float. rewrite strip_nospace.
  2:{ pose proof (body_word k q Q) as (_ & S). destruct s; [constructor; [reflexivity|assumption]|assumption]. }
  rewrite take_sign_body by assumption.
  destruct (teqb_spec (finite_body k q) (txt "nan")) as [E|_]; [exfalso; revert E; apply body_not_word; [assumption|now eexists _, _]|].
  destruct (teqb_spec (finite_body k q) (txt "inf")) as [E|_]; [exfalso; revert E; apply body_not_word; [assumption|now eexists _, _]|].
  destruct (body_digits k q Q) as (d1 & d2 & -> & D1 & D2 & N1 & L & V). rewrite span_map by (assumption || reflexivity).
  change (aeqb "." ".") with true. cbv iota. rewrite span_map' by assumption.
  destruct (d1 ++ d2) as [|d ds] eqn:E; [apply app_eq_nil in E as [E _]; contradiction|]. cbn [parse_exp]. rewrite V, L. do 2 f_equal. lia.
Qed.
Theorem parse_print_fixed k x : parse_float (print_fixed k x) = Ok (read_back k x).
Proof.
  destruct x as [s|s| |s m e].
  - apply (parse_body k 0 s). lia.
  - destruct s; reflexivity.
  - reflexivity.
  - apply (parse_body k (scaled k (S754_finite s m e)) s). apply scaled_nonneg.
Qed.
