(** The linear systems solved by orient. *)
From Coq Require Import Sorted.
From Verif Require Import Model_par Model_geo Spec_geo Proof_geo Model_orient Spec_orient Proof_orient Proof_orient2 Proof_orient3 Proof_orient4 Base.
Local Open Scope R_scope.
Lemma dir1_eq g : glass_dir1 g = vscale (e1_of g) (vnorm g).
Proof. unfold glass_dir1, e1_of, e1_raw. rewrite !Rmult_1_l. reflexivity. Qed.
Lemma dir2_eq g : glass_dir2 g = vscale (e2_of g) (vnorm g).
Proof. unfold glass_dir2, e2_of, e1_raw. rewrite !Rmult_1_l. reflexivity. Qed.
Lemma sqrt_pow q : 0 <= q -> sqrt q * sqrt q = q /\ sqrt q ^ 4 = q ^ 2 /\ sqrt q ^ 6 = q ^ 3.
Proof. intros H. pose proof (sqrt_sqrt q H) as S. repeat split; [exact S| |]; rewrite <- S at 2; ring. Qed.
Lemma list9 {A} (a b c d e f g h i a' b' c' d' e' f' g' h' i' : A) : a = a' -> b = b' -> c = c' -> d = d' -> e = e' -> f = f' -> g = g' -> h = h' -> i = i' -> [a; b; c; d; e; f; g; h; i] = [a'; b'; c'; d'; e'; f'; g'; h'; i'].
Proof. intros; subst; reflexivity. Qed.
Section O.
Variable mm : mmpar. Variable cp : cpar. Variable tol : R. Variable lstsq : list (list R) -> list R -> result (nat -> R).
Variable fix_ : list vec. Variable pix : list pixel. Variable fl : orientpar. Variables h drad : R.
Lemma point_full g0 P px py c c' rx ry ex ey : orient_point mm cp tol g0 h drad P px py c = (c', Ok (rx, ry, (ex, ey))) ->
  point_rows mm cp tol h drad g0 (glass_dir1 g0) (glass_dir2 g0) (update_rot c) P px py rx ry ex ey.
Proof.
  unfold orient_point, sbind, sget, smod, simg, sret. cbv beta iota zeta. unfold pixel_to_metric. cbn [fst snd].
  destruct (correct_brown_affine _ _ _ _) as [xc yc] eqn:EB. destruct (img_coord P (update_rot c) mm) as [[x0 y0]|] eqn:E0; [|discriminate].
  destruct (num_deriv_exterior mm h drad P (update_rot c)) as [c1 [[xd yd]|]] eqn:EN; [|discriminate].
  apply num_deriv_ok in EN. destruct EN as (-> & x & y & EX & LX & LY & D). rewrite upd_rot_idem in EX |- *. rewrite E0 in EX. injection EX as <- <-.
  rewrite rot_add_cc, upd_rot_idem, add_cc_back, !wg_wg. rewrite <- dir1_eq, <- dir2_eq.
  destruct (img_coord P (add_cc h (update_rot c)) mm) as [[x6 y6]|] eqn:E6; [|discriminate].
  destruct (img_coord P (with_glass (update_rot c) (vadd (c_glass (update_rot c)) _)) mm) as [[x16 y16]|] eqn:E16; [|discriminate].
  destruct (img_coord P (with_glass (update_rot c) (vadd (c_glass (with_glass (update_rot c) g0)) (vscale (glass_dir2 g0) h))) mm) as [[x17 y17]|] eqn:E17; [|discriminate].
  match goal with |- context [match img_coord P ?q mm with _ => _ end] => destruct (img_coord P q mm) as [q18|]; [|discriminate] end.
  intros E. apply pair_equal_spec in E. destruct E as [_ E]. injection E as <- <- <- <-.
  destruct (sqrt_pow (x0 * x0 + y0 * y0)) as (S2 & _); [nra|]. generalize dependent (sqrt (x0 * x0 + y0 * y0)). intros r S2.
  do 7 (destruct xd as [|? xd]; try discriminate LX). do 7 (destruct yd as [|? yd]; try discriminate LY).
  exists x0, y0. split; [exact E0|]. split. { cbv zeta. change (c_added (update_rot c)) with (c_added c). rewrite EB. split; reflexivity. }
  split. { intros j Hj s. destruct (D j Hj) as (xj & yj & A & Bx & By). exists xj, yj. split; [exact A|].
    do 6 (destruct j as [|j]; [split; [exact Bx|exact By]|]). lia. }
  split. { exists x6, y6. split; [exact E6|]. split; reflexivity. }
  split. { cbv zeta. change (c_added (update_rot c)) with (c_added c). cbn [app firstn skipn fst snd]. split.
    - rewrite <- !S2. apply list9; ring.
    - rewrite <- !S2. apply list9; ring. }
  split. { exists x16, y16. split; [exact E16|]. split; reflexivity. }
  exists x17, y17. split; [exact E17|]. split; reflexivity.
Qed.
Notation us := (filter (part_b pix fl) (seq 0 (length fix_))).
Notation points_ := (points mm cp tol fix_ pix fl h drad).
Lemma points_full g0 : forall idx c c' os, points_ g0 idx c = (c', Ok os) -> length os = length (filter (part_b pix fl) idx) /\
  forall j i, nth_error (filter (part_b pix fl) idx) j = Some i -> exists o px py,
   nth_error os j = Some o /\ nth_error pix i = Some (Z.of_nat i, (px, py)) /\
   point_rows mm cp tol h drad g0 (glass_dir1 g0) (glass_dir2 g0) (if (j =? 0)%nat then update_rot c else glass_at (update_rot c) g0) (nth i fix_ vzero) px py (fst (fst o)) (snd (fst o)) (fst (snd o)) (snd (snd o)).
Proof.
  induction idx as [|i r IH]; intros c c' os E; cbn [points] in E.
  { injection E as <- <-. split; [reflexivity|]. intros [|j] i N; discriminate. }
  cbn [filter]. destruct (nth_error pix i) as [[pnr [px py]]|] eqn:N; [|discriminate].
  assert (PB : part_b pix fl i = usable (op_use fl) i pnr) by (unfold part_b; now rewrite N). rewrite PB.
  destruct (usable (op_use fl) i pnr) eqn:U; [|eapply IH; exact E].
  unfold sbind in E. destruct (orient_point mm cp tol g0 h drad _ px py c) as [c1 [o|]] eqn:EO; [|discriminate].
  destruct (points_ g0 r c1) as [c2 [rest|]] eqn:ER; [|discriminate]. cbn in E. injection E as <- <-.
  assert (pnr = Z.of_nat i) as -> by (apply (usable_iff pix fl _ _ _ N) in U; destruct U as (xy' & N' & _); congruence).
  pose proof EO as EO'. apply orient_point_ok in EO'. subst c1. apply IH in ER. destruct ER as (L & F). split; [cbn; now rewrite L|].
  intros [|j] i' N'; cbn in N'.
  - injection N' as <-. exists o, px, py. split; [reflexivity|]. split; [exact N|]. destruct o as [[rx ry] [ex ey]]. apply point_full in EO. exact EO.
  - destruct (F j i' N') as (o' & qx & qy & A & Bq & D). exists o', qx, qy. split; [exact A|]. split; [exact Bq|]. cbn [Nat.eqb]. destruct (j =? 0)%nat; exact D.
Qed.

(** ---- the entries of the weighted system ---- *)
Lemma nth_of {A} (l : list A) k x d : nth_error l k = Some x -> nth k l d = x. Proof. apply nth_error_nth. Qed.
Lemma pad_len {A} n (z : A) l : (length l <= n)%nat -> length (pad_to n z l) = n.
Proof. intros H. unfold pad_to. rewrite app_length, repeat_length. lia. Qed.
Lemma pad_out {A} n (z : A) l k : (length l <= k < n)%nat -> nth_error (pad_to n z l) k = Some z.
Proof. intros H. unfold pad_to. rewrite nth_error_app2 by lia. apply nth_error_repeat. lia. Qed.
Lemma zip_len {A B C} (f : A -> B -> C) l m : length (zip_with f l m) = Nat.min (length l) (length m).
Proof. unfold zip_with. now rewrite map_length, combine_length. Qed.
Variable os : list obs. Variable a0 : addp. Variable c1 : calib.
Hypothesis LO : (length os <= length fix_)%nat.
Definition wX : list (list R) := zip_with (fun w x => map (Rmult (sqrt w)) (firstn (numbers fl) x)) (weights fix_ fl os) (design_x fix_ os).
Definition wY : list R := zip_with (fun w y => sqrt w * y) (weights fix_ fl os) (design_y fix_ os a0 c1).
Lemma len_weights : length (weights fix_ fl os) = (2 * length fix_ + 10)%nat.
Proof. unfold weights. rewrite pad_len; [unfold maxsize; lia|]. rewrite app_length, repeat_length, map_length. unfold maxsize. change (length (flag_list fl)) with 10%nat. lia. Qed.
Lemma len_dx : length (design_x fix_ os) = (2 * length fix_ + 10)%nat.
Proof. unfold design_x. rewrite pad_len; [unfold maxsize; lia|]. rewrite app_length, len_flat2. change (list R * list R * (R * R))%type with obs. unfold maxsize. change (length ident_rows) with 10%nat. lia. Qed.
Lemma len_dy : length (design_y fix_ os a0 c1) = (2 * length fix_ + 10)%nat.
Proof. unfold design_y. rewrite pad_len; [unfold maxsize; lia|]. rewrite app_length, len_flat2. change (list R * list R * (R * R))%type with obs. unfold maxsize. change (length (ident_y a0 c1)) with 10%nat. lia. Qed.
Lemma w_point k : (k < 2 * length os)%nat -> nth_error (weights fix_ fl os) k = Some 1.
Proof. intros H. apply pad_app. rewrite nth_error_app1 by (rewrite repeat_length; lia). apply nth_error_repeat. lia. Qed.
Lemma w_ident i : (i < 10)%nat -> nth_error (weights fix_ fl os) (2 * length os + i) = Some (if (nth i (inner_flags fl) 1 =? 0)%Z then POS_INF else 1).
Proof.
  intros H. apply pad_app. rewrite nth_error_app2 by (rewrite repeat_length; lia). rewrite repeat_length. replace (2 * length os + i - length os * 2)%nat with i by lia.
  rewrite nth_error_map. do 10 (destruct i as [|i]; [cbn [nth_error flag_list option_map nth inner_flags]; unfold on; destruct (_ =? 0)%Z; reflexivity|]). lia.
Qed.
Lemma w_rest k : (2 * length os + 10 <= k < 2 * length fix_ + 10)%nat -> nth_error (weights fix_ fl os) k = Some 1.
Proof. intros H. unfold weights. apply pad_out. rewrite app_length, repeat_length, map_length. unfold maxsize. change (length (flag_list fl)) with 10%nat. lia. Qed.
Lemma mul1 l : map (Rmult (sqrt 1)) l = l.
Proof. rewrite sqrt_1. induction l; cbn; [reflexivity|]. now rewrite Rmult_1_l, IHl. Qed.
Lemma sys_point j o : nth_error os j = Some o ->
  nth (2 * j) wX [] = firstn (numbers fl) (fst (fst o)) /\ nth (2 * j + 1) wX [] = firstn (numbers fl) (snd (fst o)) /\
  nth (2 * j) wY 0 = fst (snd o) /\ nth (2 * j + 1) wY 0 = snd (snd o).
Proof.
  intros O. assert (Hj : (j < length os)%nat) by (apply nth_error_Some; congruence).
  destruct (nth_flat2 (fun o : obs => fst (fst o)) (fun o => snd (fst o)) os ident_rows j o O) as (X1 & X2).
  destruct (nth_flat2 (fun o : obs => fst (snd o)) (fun o => snd (snd o)) os (ident_y a0 c1) j o O) as (Y1 & Y2).
  assert (W1 := w_point (2 * j) ltac:(lia)). assert (W2 := w_point (2 * j + 1) ltac:(lia)).
  apply (pad_app (maxsize fix_) (repeat 0 19)) in X1, X2. apply (pad_app (maxsize fix_) 0) in Y1, Y2.
  change (nth_error (design_x fix_ os) (2 * j) = Some (fst (fst o))) in X1. change (nth_error (design_x fix_ os) (2 * j + 1) = Some (snd (fst o))) in X2.
  change (nth_error (design_y fix_ os a0 c1) (2 * j) = Some (fst (snd o))) in Y1. change (nth_error (design_y fix_ os a0 c1) (2 * j + 1) = Some (snd (snd o))) in Y2.
  unfold wX, wY. repeat split; apply nth_of; rewrite nth_zip.
  - rewrite W1. rewrite X1. now rewrite mul1.
  - rewrite W2. rewrite X2. now rewrite mul1.
  - rewrite W1. rewrite Y1. now rewrite sqrt_1, Rmult_1_l.
  - rewrite W2. rewrite Y2. now rewrite sqrt_1, Rmult_1_l.
Qed.
Lemma firstn_ident i : firstn (numbers fl) (map (fun j => if (j =? 6 + i)%nat then 1 else 0) (seq 0 19)) = map (fun j => if (j =? 6 + i)%nat then 1 else 0) (seq 0 (numbers fl)).
Proof. rewrite firstn_map. f_equal. unfold numbers. destruct (_ =? 0)%Z; reflexivity. Qed.
Lemma nth_map_seq (f : nat -> R) n k : (k < n)%nat -> nth k (map f (seq 0 n)) 0 = f k.
Proof. intros H. rewrite (nth_indep _ 0 (f 0%nat)) by (rewrite map_length, seq_length; lia). rewrite map_nth. now rewrite seq_nth by lia. Qed.
Lemma sqrt_inf : sqrt POS_INF = 10 ^ 10.
Proof. unfold POS_INF. replace (10 ^ 20) with (10 ^ 10 * 10 ^ 10) by (rewrite <- pow_add; reflexivity). apply sqrt_square. apply pow_le. lra. Qed.
Lemma sys_ident i : (i < 10)%nat -> let w := if (nth i (inner_flags fl) 1 =? 0)%Z then 10 ^ 10 else 1 in
  length (nth (2 * length os + i) wX []) = numbers fl /\ (forall k, (k < numbers fl)%nat -> nth k (nth (2 * length os + i) wX []) 0 = if (k =? 6 + i)%nat then w else 0) /\
  nth (2 * length os + i) wY 0 = w * nth i (ident_y a0 c1) 0.
Proof.
  intros Hi w. assert (W := w_ident i Hi).
  assert (SW : sqrt (if (nth i (inner_flags fl) 1 =? 0)%Z then POS_INF else 1) = w) by (unfold w; destruct (_ =? 0)%Z; [apply sqrt_inf|apply sqrt_1]).
  assert (X : nth_error (design_x fix_ os) (2 * length os + i) = Some (map (fun j => if (j =? 6 + i)%nat then 1 else 0) (seq 0 19))).
  { apply pad_app. rewrite nth_error_app2 by (rewrite len_flat2; change (list R * list R * (R * R))%type with obs; lia). rewrite len_flat2. change (list R * list R * (R * R))%type with obs. replace (2 * length os + i - 2 * length os)%nat with i by lia.
    unfold ident_rows. rewrite nth_error_map, seq_nth_error by exact Hi. reflexivity. }
  assert (Y : nth_error (design_y fix_ os a0 c1) (2 * length os + i) = Some (nth i (ident_y a0 c1) 0)).
  { apply pad_app. rewrite nth_error_app2 by (rewrite len_flat2; change (list R * list R * (R * R))%type with obs; lia). rewrite len_flat2. change (list R * list R * (R * R))%type with obs. replace (2 * length os + i - 2 * length os)%nat with i by lia.
    apply nth_error_nth'. exact Hi. }
  assert (RX : nth (2 * length os + i) wX [] = map (Rmult w) (map (fun j => if (j =? 6 + i)%nat then 1 else 0) (seq 0 (numbers fl)))).
  { apply nth_of. unfold wX. rewrite nth_zip, W, X, SW, firstn_ident. reflexivity. }
  rewrite RX. split; [now rewrite !map_length, seq_length|]. split.
  - intros k Hk. rewrite map_map. rewrite (nth_map_seq (fun x => w * (if (x =? 6 + i)%nat then 1 else 0))) by exact Hk. destruct (k =? 6 + i)%nat; ring.
  - apply nth_of. unfold wY. rewrite nth_zip, W, Y, SW. reflexivity.
Qed.
Lemma nth_zeros (l : list R) : Forall (fun x => x = 0) l -> forall k, nth k l 0 = 0.
Proof. induction 1; intros [|k]; cbn; auto. Qed.
Lemma sys_rest r : (2 * length os + 10 <= r)%nat -> nth r wY 0 = 0 /\ forall k, nth k (nth r wX []) 0 = 0.
Proof.
  intros Hr. destruct (le_lt_dec (2 * length fix_ + 10) r) as [G|G].
  - rewrite !nth_overflow; [split; [reflexivity|]; intros [|k]; reflexivity| |]; unfold wX, wY; rewrite zip_len, len_weights, ?len_dx, ?len_dy; lia.
  - assert (W := w_rest r (conj Hr G)).
    assert (X : nth_error (design_x fix_ os) r = Some (repeat 0 19)) by (apply pad_out; rewrite app_length, len_flat2; change (list R * list R * (R * R))%type with obs; unfold maxsize; change (length ident_rows) with 10%nat; lia).
    assert (Y : nth_error (design_y fix_ os a0 c1) r = Some 0) by (apply pad_out; rewrite app_length, len_flat2; change (list R * list R * (R * R))%type with obs; unfold maxsize; change (length (ident_y a0 c1)) with 10%nat; lia).
    split; [apply nth_of; unfold wY; rewrite nth_zip, W, Y; f_equal; ring|]. intros k.
    assert (RX : nth r wX [] = firstn (numbers fl) (repeat 0 19)) by (apply nth_of; unfold wX; rewrite nth_zip, W, X; now rewrite mul1). rewrite RX.
    apply nth_zeros. unfold numbers. destruct (_ =? 0)%Z; cbn; repeat (apply Forall_cons; [reflexivity|]); apply Forall_nil.
Qed.
End O.

Section P.
Variable mm : mmpar. Variable cp : cpar. Variable tol : R. Variable lstsq : list (list R) -> list R -> result (nat -> R).
Variable fix_ : list vec. Variable pix : list pixel. Variable fl : orientpar. Variables h drad : R.
Variable C0 : calib.
Notation us := (filter (part_b pix fl) (seq 0 (length fix_))).
Notation d1 := (glass_dir1 (c_glass C0)).
Notation d2 := (glass_dir2 (c_glass C0)).
Notation sys := (full_system mm cp tol fix_ pix fl h drad d1 d2 us C0).
Lemma filter_le {A} (f : A -> bool) l : (length (filter f l) <= length l)%nat.
Proof. induction l; cbn; [lia|]. destruct (f a); cbn; lia. Qed.
Lemma freeze_applied beta i : freeze fl beta i = applied fl beta i.
Proof.
  unfold freeze, applied. destruct (6 <=? i)%nat eqn:A; [|reflexivity]. destruct (i <? 16)%nat eqn:B; [|reflexivity]. cbn [andb].
  apply Nat.leb_le in A. apply Nat.ltb_lt in B. assert (H : (i - 6 < 10)%nat) by lia. generalize dependent (i - 6)%nat. intros k H.
  do 10 (destruct k as [|k]; [cbn [nth flag_list inner_flags]; unfold on; destruct (_ =? 0)%Z; reflexivity|]). lia.
Qed.
Lemma rowdot_sum b x : rowdot b x = row_sum x b.
Proof.
  unfold rowdot, row_sum. f_equal. assert (G : forall s l, map (fun p : R * nat => fst p * b (snd p)) (combine l (seq s (length l))) = map (fun k => nth (k - s) l 0 * b k) (seq s (length l))).
  { intros s l. revert s. induction l as [|a l IH]; intros s; [reflexivity|]. cbn [length seq combine map fst snd]. f_equal; [rewrite Nat.sub_diag; reflexivity|].
    rewrite IH. apply map_ext_in. intros k Hk. apply in_seq in Hk. replace (k - s)%nat with (S (k - S s)) by lia. reflexivity. }
  rewrite G. apply map_ext. intros k. now rewrite Nat.sub_0_r.
Qed.
Lemma us_fix j i : nth_error us j = Some i -> exists P, nth_error fix_ i = Some P.
Proof.
  intros N. apply nth_error_In, filter_In in N. destruct N as [N _]. apply in_seq in N. destruct (nth_error fix_ i) eqn:E; [eauto|]. apply nth_error_None in E. lia.
Qed.
(** the system (X, y) and the solution b belong to the result of a pass *)
Definition tied (p : pass_result) (X : list (list R)) (y : list R) (b : nat -> R) : Prop :=
  length (ps_obs p) = length us /\ ps_beta p = freeze fl b /\ X = wX fix_ fl (ps_obs p) /\
  exists c1, ps_y p = design_y fix_ (ps_obs p) (c_added C0) c1 /\ y = wY fix_ fl (ps_obs p) (c_added C0) c1.
(** one pass *)
Lemma pass_sys c c' p : pass mm cp tol lstsq fix_ pix fl h drad (c_glass C0) (c_added C0) c = (c', Ok p) ->
  exists X y beta, lstsq X y = Ok beta /\ sys (update_rot c) X y /\ ps_stop p = converged fl beta /\
  (exists g1, update_rot c' = update_rot (apply_beta fl (c_glass C0) (freeze fl beta) (with_glass (update_rot c) g1)) /\ (us <> [] -> g1 = c_glass C0) /\ (g1 = c_glass c \/ g1 = c_glass C0)) /\ tied p X y beta /\
  forall k i, nth_error us k = Some i -> nth_error (residuals fix_ fl p) (2 * k) = Some (row_sum (nth (2 * k) X []) (applied fl beta) - nth (2 * k) y 0) /\
    nth_error (residuals fix_ fl p) (2 * k + 1) = Some (row_sum (nth (2 * k + 1) X []) (applied fl beta) - nth (2 * k + 1) y 0).
Proof.
  intros E. apply pass_ok in E. destruct E as (c1 & os & beta & EP & ES & -> & ->). pose proof EP as EO. apply points_ok in EO. apply points_full in EP. destruct EP as (LO & F).
  assert (LE : (length os <= length fix_)%nat) by (rewrite LO; eapply Nat.le_trans; [apply filter_le|now rewrite seq_length]).
  assert (IN : c_int c1 = c_int c /\ c_added c1 = c_added c) by (destruct EO as [[-> _]|[-> _]]; split; reflexivity). destruct IN as (I1 & I2).
  exists (wX fix_ fl os), (wY fix_ fl os (c_added C0) c1), beta. split; [exact ES|]. split.
  { unfold full_system. rewrite <- LO. change (unknowns fl) with (numbers fl).
    split; [unfold wX; rewrite zip_len, (len_weights fix_ fl os LE), (len_dx fix_ os LE); lia|].
    split; [unfold wY; rewrite zip_len, (len_weights fix_ fl os LE), (len_dy fix_ os _ _ LE); lia|].
    split; [|split].
    - intros j i N. destruct (F j i N) as (o & px & py & A & B & D). destruct (us_fix j i N) as (P & NP). rewrite (nth_error_nth _ _ _ NP) in D.
      exists P, px, py, (fst (fst o)), (snd (fst o)), (fst (snd o)), (snd (snd o)). split; [exact NP|]. split; [exact B|]. split; [exact D|].
      apply (sys_point fix_ fl os (c_added C0) c1 LE j o A).
    - intros i Hi. destruct (sys_ident fix_ fl os (c_added C0) c1 LE i Hi) as (A & B & D). split; [exact A|]. split; [exact B|]. cbv zeta in D. rewrite D.
      do 10 (destruct i as [|i]; [cbn [nth ident_y inner_params Nat.ltb Nat.leb]; change (c_int (update_rot c)) with (c_int c); change (c_added (update_rot c)) with (c_added c); rewrite <- ?I1, <- ?I2; ring|]). lia.
    - intros r Hr. apply (sys_rest fix_ fl os (c_added C0) c1 LE r Hr). }
  split; [reflexivity|]. split.
  { destruct EO as [[-> NP]|[-> _]].
    - exists (c_glass c). split; [reflexivity|]. split; [|now left]. intros N. exfalso. apply N. destruct us as [|i l] eqn:EU; [reflexivity|].
      assert (I : In i us) by (rewrite EU; now left). apply filter_In in I. destruct I as [I1' I2']. apply part_iff in I2'. now apply NP in I1'.
    - exists (c_glass C0). split; [reflexivity|]. split; [reflexivity|now right]. }
  split. { split; [exact LO|]. split; [reflexivity|]. split; [reflexivity|]. exists c1. split; reflexivity. }
  intros k i N. destruct (F k i N) as (o & px & py & A & _). destruct (sys_point fix_ fl os (c_added C0) c1 LE k o A) as (X1 & X2 & Y1 & Y2). rewrite X1, X2, Y1, Y2.
  unfold residuals. cbn [ps_beta ps_obs ps_y]. rewrite !nth_zip.
  destruct (nth_flat2 (fun o : obs => fst (fst o)) (fun o => snd (fst o)) os ident_rows k o A) as (U1 & U2).
  destruct (nth_flat2 (fun o : obs => fst (snd o)) (fun o => snd (snd o)) os (ident_y (c_added C0) c1) k o A) as (V1 & V2).
  apply (pad_app (maxsize fix_) (repeat 0 19)) in U1, U2. apply (pad_app (maxsize fix_) 0) in V1, V2.
  change (nth_error (design_x fix_ os) (2 * k) = Some (fst (fst o))) in U1. change (nth_error (design_x fix_ os) (2 * k + 1) = Some (snd (fst o))) in U2.
  change (nth_error (design_y fix_ os (c_added C0) c1) (2 * k) = Some (fst (snd o))) in V1. change (nth_error (design_y fix_ os (c_added C0) c1) (2 * k + 1) = Some (snd (snd o))) in V2.
  rewrite U1, U2, V1, V2.
  rewrite !rowdot_sum. assert (RS : forall x, row_sum x (freeze fl beta) = row_sum x (applied fl beta)) by (intros x; unfold row_sum; f_equal; apply map_ext; intros q; now rewrite freeze_applied).
  rewrite !RS. split; reflexivity.
Qed.
(** the camera after a pass *)
Lemma total_app i l m : total i (l ++ m) = total i l + total i m.
Proof. unfold total. rewrite map_app. induction (map (fun b => b i) l); cbn; [ring|rewrite IHl0; ring]. Qed.
Lemma calibrated_step pre beta g g1 : update_rot (apply_beta fl (c_glass C0) (freeze fl beta) (with_glass (calibrated C0 pre g) g1)) =
  calibrated C0 (pre ++ [applied fl beta]) (if (op_interf fl =? 0)%Z then g1 else vadd (vadd g1 (vscale d1 (beta 16%nat))) (vscale d2 (beta 17%nat))).
Proof.
  assert (T1 : forall i, total i [applied fl beta] = freeze fl beta i) by (intros i; unfold total; cbn [map fold_right]; rewrite freeze_applied; ring).
  unfold calibrated, corrected, camera_at. cbn [map seq nth]. rewrite !total_app, !T1.
  rewrite <- !Rplus_assoc. rewrite dir1_eq, dir2_eq.
  unfold update_rot, apply_beta, with_ext, with_glass, rotation_matrix. cbn [c_ext c_int c_glass c_added c_lut e_pos omega phi kappa vx vy vz cc xh yh k1 k2 k3 p1 p2 scx she inner_params nth plus].
  rewrite !rot_product. unfold on. destruct (op_interf fl =? 0)%Z; reflexivity.
Qed.
Definition gl (pre : list (nat -> R)) (g : vec) : Prop := us <> [] \/ op_interf fl = 0%Z -> g = glass_after fl C0 pre.
Definition solved (all : list (nat -> R)) (k : nat) (x : nat -> R) : Prop := exists X y g, lstsq X y = Ok x /\
  sys (calibrated C0 (map (applied fl) (firstn k all)) g) X y /\ gl (firstn k all) g.
Definition small (b : nat -> R) : Prop := forall i, (i < unknowns fl)%nat -> Rabs (b i) <= 1 / 10000.
Lemma converged_iff b : converged fl b = true <-> small b.
Proof.
  unfold converged, small. rewrite forallb_forall. change (unknowns fl) with (numbers fl). replace (1 / 10000) with CONVERGENCE by (unfold CONVERGENCE; field). split.
  - intros H i Hi. specialize (H i ltac:(apply in_seq; lia)). unfold Rleb in H. now destruct (Rle_dec _ _).
  - intros H i Hi. apply in_seq in Hi. unfold Rleb. destruct (Rle_dec _ _) as [|N]; [reflexivity|]. exfalso. apply N, H. lia.
Qed.
Lemma gl_step pre beta g g1 : gl pre g -> (us <> [] -> g1 = c_glass C0) -> (g1 = g \/ g1 = c_glass C0) ->
  gl (pre ++ [beta]) (if (op_interf fl =? 0)%Z then g1 else vadd (vadd g1 (vscale d1 (beta 16%nat))) (vscale d2 (beta 17%nat))).
Proof.
  intros G U A H. unfold glass_after. rewrite rev_app_distr. cbn [rev app]. destruct (op_interf fl =? 0)%Z eqn:E.
  - apply Z.eqb_eq in E. destruct A as [-> | ->]; [|reflexivity]. rewrite (G (or_intror E)). unfold glass_after. destruct (rev pre); [reflexivity|]. now rewrite E.
  - apply Z.eqb_neq in E. destruct H as [H|H]; [|congruence]. now rewrite (U H).
Qed.
Lemma firstn_all_app {A} (l m : list A) : firstn (length l) (l ++ m) = l.
Proof. rewrite firstn_app, Nat.sub_diag, firstn_all. cbn. apply app_nil_r. Qed.
(** all passes from a camera corrected by pre *)
Lemma passes_sys : forall k pre g c c' p, passes mm cp tol lstsq fix_ pix fl h drad (c_glass C0) (c_added C0) k c = (c', Ok p) ->
  update_rot c = calibrated C0 (map (applied fl) pre) g -> gl pre g ->
  exists bs b g', let all := pre ++ bs ++ [b] in (length bs <= k)%nat /\ Forall (fun b => ~ small b) bs /\
  (forall j x, nth_error (bs ++ [b]) j = Some x -> solved all (length pre + j) x) /\
  update_rot c' = calibrated C0 (map (applied fl) all) g' /\ gl all g' /\ (ps_stop p = true <-> small b) /\ (ps_stop p = false -> length bs = k) /\
  exists X y g, lstsq X y = Ok b /\ sys (calibrated C0 (map (applied fl) (pre ++ bs)) g) X y /\ gl (pre ++ bs) g /\ tied p X y b /\
  forall q i, nth_error us q = Some i -> nth_error (residuals fix_ fl p) (2 * q) = Some (row_sum (nth (2 * q) X []) (applied fl b) - nth (2 * q) y 0) /\
    nth_error (residuals fix_ fl p) (2 * q + 1) = Some (row_sum (nth (2 * q + 1) X []) (applied fl b) - nth (2 * q + 1) y 0).
Proof.
  assert (LAST : forall k pre g c c' p, pass mm cp tol lstsq fix_ pix fl h drad (c_glass C0) (c_added C0) c = (c', Ok p) -> update_rot c = calibrated C0 (map (applied fl) pre) g -> gl pre g -> (ps_stop p = false -> k = 0%nat) ->
    exists bs b g', let all := pre ++ bs ++ [b] in (length bs <= k)%nat /\ Forall (fun b => ~ small b) bs /\
    (forall j x, nth_error (bs ++ [b]) j = Some x -> solved all (length pre + j) x) /\
    update_rot c' = calibrated C0 (map (applied fl) all) g' /\ gl all g' /\ (ps_stop p = true <-> small b) /\ (ps_stop p = false -> length bs = k) /\
    exists X y g, lstsq X y = Ok b /\ sys (calibrated C0 (map (applied fl) (pre ++ bs)) g) X y /\ gl (pre ++ bs) g /\ tied p X y b /\
    forall q i, nth_error us q = Some i -> nth_error (residuals fix_ fl p) (2 * q) = Some (row_sum (nth (2 * q) X []) (applied fl b) - nth (2 * q) y 0) /\
      nth_error (residuals fix_ fl p) (2 * q + 1) = Some (row_sum (nth (2 * q + 1) X []) (applied fl b) - nth (2 * q + 1) y 0)).
  { intros k pre g c c' p E U G K. apply pass_sys in E. destruct E as (X & y & beta & L & S & ST & (g1 & UC & N1 & N2) & TI & R).
    eexists [], beta, _. cbn [app length]. split; [lia|]. split; [apply Forall_nil|]. rewrite U in S.
    split. { intros [|j] x N; [|destruct j; discriminate]. injection N as <-. rewrite Nat.add_0_r. exists X, y, g. rewrite firstn_all_app. split; [exact L|]. split; [exact S|]. exact G. }
    split. { rewrite UC, U, calibrated_step, map_app. reflexivity. }
    split. { apply gl_step with (g := g); [exact G|exact N1|]. destruct N2 as [-> | ->]; [left|now right]. change (c_glass c) with (c_glass (update_rot c)). rewrite U. reflexivity. }
    split; [rewrite ST; apply converged_iff|]. split; [intros Q; now rewrite (K Q)|]. exists X, y, g. rewrite app_nil_r. split; [exact L|]. split; [exact S|]. split; [exact G|]. split; [exact TI|]. exact R. }
  induction k as [|k IH]; intros pre g c c' p E U G; rewrite passes_eq in E; destruct (pass _ _ _ _ _ _ _ _ _ _ _ c) as [c1 [q|]] eqn:EP; try discriminate.
  - assert (E' : (c1, Ok q) = (c', Ok p)) by (destruct (ps_stop q); exact E). injection E' as -> ->. eapply LAST; eauto.
  - destruct (ps_stop q) eqn:Q. { injection E as -> ->. eapply LAST; eauto. intros W. congruence. }
    pose proof EP as EP'. apply pass_sys in EP. destruct EP as (X & y & beta & L & S & ST & (g1 & UC & N1 & N2) & _ & _). rewrite U in S, UC. rewrite calibrated_step in UC.
    assert (G2 : gl (pre ++ [beta]) (if (op_interf fl =? 0)%Z then g1 else vadd (vadd g1 (vscale d1 (beta 16%nat))) (vscale d2 (beta 17%nat)))).
    { apply gl_step with (g := g); [exact G|exact N1|]. destruct N2 as [-> | ->]; [left|now right]. change (c_glass c) with (c_glass (update_rot c)). rewrite U. reflexivity. }
    assert (MA : map (applied fl) (pre ++ [beta]) = map (applied fl) pre ++ [applied fl beta]) by (now rewrite map_app). rewrite <- MA in UC.
    destruct (IH _ _ _ _ _ E UC G2) as (bs & b & g' & LB & FB & SB & UB & GB & STB & KB & XB & yB & gB & R1 & R2 & R3 & TI & R4).
    exists (beta :: bs), b, g'. cbv zeta in *. rewrite <- !app_assoc in *. cbn [app length] in *. split; [lia|]. split. { apply Forall_cons; [|exact FB]. rewrite <- converged_iff, <- ST, Q. discriminate. }
    split. { intros [|j] x N; cbn in N.
      - injection N as <-. rewrite Nat.add_0_r. exists X, y, g. rewrite firstn_all_app. split; [exact L|]. split; [exact S|]. exact G.
      - specialize (SB j x N). rewrite app_length in SB. cbn [length] in SB. replace (length pre + Datatypes.S j)%nat with (length pre + 1 + j)%nat by lia. exact SB. }
    split; [exact UB|]. split; [exact GB|]. split; [exact STB|]. split; [intros W; now rewrite (KB W)|]. exists XB, yB, gB. split; [exact R1|]. split; [exact R2|]. split; [exact R3|]. split; [exact TI|]. exact R4.
Qed.
End P.

Section Q.
Variable mm : mmpar. Variable cp : cpar. Variable tol : R. Variable lstsq : list (list R) -> list R -> result (nat -> R).
Variable fix_ : list vec. Variable pix : list pixel. Variable fl : orientpar. Variables h drad : R.
Notation us := (filter (part_b pix fl) (seq 0 (length fix_))).
Lemma calibrated_nil c : calibrated c [] (c_glass c) = update_rot c.
Proof.
  unfold calibrated. rewrite corrected_nil, cam_self. unfold total. cbn [map fold_right nth inner_params]. rewrite !Rplus_0_r. unfold update_rot, with_ext. cbn [c_ext].
  destruct c as [e [a b d] g [? ? ? ? ? ? ?] l]. reflexivity.
Qed.
Lemma us_spec : StronglySorted lt us /\ (forall i, In i us <-> (i < length fix_)%nat /\ takes_part fl pix i) /\ ((forall i, (i < length fix_)%nat -> takes_part fl pix i) -> us = seq 0 (length fix_)).
Proof.
  split; [apply sorted_filter|]. split. { intros i. rewrite filter_In, in_seq, part_iff. intuition lia. }
  intros A. assert (Q : forall n s, (forall i, (s <= i < s + n)%nat -> part_b pix fl i = true) -> filter (part_b pix fl) (seq s n) = seq s n).
  { induction n; intros s Hs; cbn; [reflexivity|]. rewrite Hs by lia. f_equal. apply IHn. intros i Hi. apply Hs. lia. }
  apply Q. intros i Hi. apply part_iff, A. lia.
Qed.
Lemma orient_sys c c' r : orient mm cp tol lstsq fix_ pix fl h drad c = (c', Ok r) ->
  exists bs b g', let all := bs ++ [b] in (length bs <= 79)%nat /\ Forall (fun b => ~ small fl b) bs /\
  (forall j x, nth_error all j = Some x -> solved mm cp tol lstsq fix_ pix fl h drad c all j x) /\
  camera_at c' (ext_params c') = calibrated c (map (applied fl) all) g' /\ gl fix_ pix fl c all g' /\ (r <> None -> c' = calibrated c (map (applied fl) all) g') /\
  (r <> None <-> small fl b) /\ (r = None -> length bs = 79%nat) /\
  exists X y g, lstsq X y = Ok b /\ full_system mm cp tol fix_ pix fl h drad (glass_dir1 (c_glass c)) (glass_dir2 (c_glass c)) us c (calibrated c (map (applied fl) bs) g) X y /\ gl fix_ pix fl c bs g /\
  forall resi, r = Some resi -> forall q i, nth_error us q = Some i -> nth_error resi (2 * q) = Some (row_sum (nth (2 * q) X []) (applied fl b) - nth (2 * q) y 0) /\
    nth_error resi (2 * q + 1) = Some (row_sum (nth (2 * q + 1) X []) (applied fl b) - nth (2 * q + 1) y 0).
Proof.
  intros E. apply orient_ok in E. destruct E as (c1 & p & EP & D).
  destruct (passes_sys mm cp tol lstsq fix_ pix fl h drad c 79 [] (c_glass c) c c1 p EP) as (bs & b & g' & LB & FB & SB & UB & GB & STB & KB & XB & yB & gB & R1 & R2 & R3 & _ & R4).
  { cbn [map]. symmetry. apply calibrated_nil. } { intros _. reflexivity. }
  cbn [app length plus] in *. exists bs, b, g'. cbv zeta. split; [exact LB|]. split; [exact FB|]. split; [exact SB|].
  assert (UC : update_rot c' = update_rot c1) by (destruct D as [(_ & -> & _)|(_ & -> & _)]; reflexivity).
  split; [rewrite cam_self, UC; exact UB|]. split; [exact GB|]. split. { intros N. destruct D as [(_ & -> & _)|(_ & _ & ->)]; [exact UB|congruence]. }
  split. { rewrite <- STB. destruct D as [(-> & _ & ->)|(-> & _ & ->)]; split; congruence. }
  split. { intros N. apply KB. destruct D as [(_ & _ & ->)|(-> & _)]; [discriminate|reflexivity]. }
  exists XB, yB, gB. split; [exact R1|]. split; [exact R2|]. split; [exact R3|]. intros resi ER q i N. destruct D as [(_ & _ & ->)|(_ & _ & ->)]; [|discriminate]. injection ER as <-. exact (R4 q i N).
Qed.
Lemma full_sys c c' rows : full_calibration mm cp tol lstsq fix_ pix fl h drad c = (c', Ok rows) ->
  exists bs b X y g, lstsq X y = Ok b /\ full_system mm cp tol fix_ pix fl h drad (glass_dir1 (c_glass c)) (glass_dir2 (c_glass c)) us c (calibrated c (map (applied fl) bs) g) X y /\ gl fix_ pix fl c bs g /\
  small fl b /\ (exists g', c' = calibrated c (map (applied fl) (bs ++ [b])) g') /\ length rows = length pix /\
  forall k i t, nth_error us k = Some i -> nth_error pix k = Some t ->
    nth_error rows k = Some (row_sum (nth (2 * k) X []) (applied fl b) - nth (2 * k) y 0, row_sum (nth (2 * k + 1) X []) (applied fl b) - nth (2 * k + 1) y 0, fst t).
Proof.
  unfold full_calibration, sbind. destruct (orient mm cp tol lstsq fix_ pix fl h drad c) as [c1 [[resi|]|]] eqn:EO; try discriminate.
  unfold slift. intros E. apply pair_equal_spec in E. destruct E as [<- ET]. apply orient_sys in EO. destruct EO as (bs & b & g' & _ & _ & _ & _ & _ & U & S & _ & X & y & g & R1 & R2 & R3 & R4).
  apply table_ok in ET. destruct ET as (L & T). exists bs, b, X, y, g. split; [exact R1|]. split; [exact R2|]. split; [exact R3|]. split; [apply S; discriminate|]. split; [exists g'; apply U; discriminate|]. split; [exact L|].
  intros k i t N NT. destruct (R4 resi eq_refl k i N) as (A & B). destruct (T k t NT) as (a & b' & A' & B' & RK). cbn [plus] in A', B'. rewrite A in A'. rewrite B in B'. injection A' as <-. injection B' as <-. exact RK.
Qed.
End Q.
