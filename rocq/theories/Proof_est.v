(** Proofs about the error estimates. *)
From Coq Require Import Sorted.
From Verif Require Import Model_par Model_geo Spec_geo Proof_geo Model_orient Spec_orient Proof_orient Proof_orient2 Proof_orient3 Proof_orient4 Proof_orient5 Model_est Spec_est Base.
Local Open Scope R_scope.

Lemma sumR_app l m : sumR (l ++ m) = sumR l + sumR m.
Proof. unfold sumR. induction l; cbn; [ring|rewrite IHl; ring]. Qed.
Lemma sumR_nth {A} (f : A -> R) (l : list A) d : sumR (map f l) = sum_to (length l) (fun i => f (nth i l d)).
Proof.
  unfold sum_to, sumR. f_equal. induction l as [|a l IH] using rev_ind; [reflexivity|].
  rewrite app_length, Nat.add_1_r, seq_S, !map_app, IH. cbn [map plus]. f_equal.
  - apply map_ext_in. intros i Hi. apply in_seq in Hi. rewrite app_nth1 by lia. reflexivity.
  - rewrite app_nth2, Nat.sub_diag by lia. reflexivity.
Qed.
Lemma sum_to_ext n (f g : nat -> R) : (forall i, (i < n)%nat -> f i = g i) -> sum_to n f = sum_to n g.
Proof. intros H. unfold sum_to. f_equal. apply map_ext_in. intros i Hi. apply in_seq in Hi. apply H. lia. Qed.
Lemma sumR_scal {A} (f : A -> R) k l : sumR (map (fun a => k * f a) l) = k * sumR (map f l).
Proof. unfold sumR. induction l; cbn; [ring|rewrite IHl; ring]. Qed.
Lemma sumR_plus {A} (f g : A -> R) l : sumR (map (fun a => f a + g a) l) = sumR (map f l) + sumR (map g l).
Proof. unfold sumR. induction l; cbn; [ring|rewrite IHl; ring]. Qed.
Lemma sumR_zero {A} (l : list A) : sumR (map (fun _ => 0) l) = 0.
Proof. unfold sumR. induction l; cbn; [ring|rewrite IHl; ring]. Qed.
Lemma sumR_swap {A B} (f : A -> B -> R) l m : sumR (map (fun a => sumR (map (f a) m)) l) = sumR (map (fun b => sumR (map (fun a => f a b) l)) m).
Proof.
  induction l as [|a l IH]; cbn [map].
  - symmetry. apply (sumR_zero m).
  - change (sumR (?x :: ?t)) with (x + sumR t). rewrite IH. rewrite <- sumR_plus. f_equal.
Qed.
Lemma sum_to_R n f : sum_to n f = sumR (map f (seq 0 n)). Proof. reflexivity. Qed.
Lemma sumR_sq {A} (f : A -> R) l : 0 <= sumR (map (fun a => f a ^ 2) l) /\ (sumR (map (fun a => f a ^ 2) l) = 0 -> forall a, In a l -> f a = 0).
Proof.
  unfold sumR. induction l as [|a l (IH & IH')]; cbn [map fold_right]; [split; [lra|intros _ ? []]|].
  pose proof (pow2_ge_0 (f a)). split; [lra|]. intros Z b [<-|Hb]; [|apply IH'; auto; lra].
  assert (f a ^ 2 = 0) by lra. nra.
Qed.
Lemma row_sum_scale s l b : row_sum (map (Rmult s) l) b = s * row_sum l b.
Proof.
  unfold row_sum. rewrite map_length. rewrite <- (sumR_scal (fun k => nth k l 0 * b k)). unfold sumR. f_equal. apply map_ext_in. intros k Hk. apply in_seq in Hk.
  rewrite (nth_indep _ 0 (s * 0)) by (rewrite map_length; lia). rewrite (map_nth (Rmult s)). ring.
Qed.
Lemma row_sum_ext x (a b : nat -> R) : (forall i, a i = b i) -> row_sum x a = row_sum x b.
Proof. intros H. unfold row_sum. f_equal. apply map_ext. intros q. now rewrite H. Qed.
Lemma zip_sum {A B} (f : A -> B -> R) l m a0 b0 : length l = length m -> sumR (zip_with f l m) = sum_to (length l) (fun i => f (nth i l a0) (nth i m b0)).
Proof.
  intros L. unfold zip_with. rewrite (sumR_nth (fun p : A * B => f (fst p) (snd p)) _ (a0, b0)). rewrite combine_length, <- L, Nat.min_id. apply sum_to_ext.
  intros i Hi. rewrite combine_nth by exact L. reflexivity.
Qed.
Lemma nth_zip_with {A B C} (f : A -> B -> C) l m i a0 b0 c0 : (i < length l)%nat -> (i < length m)%nat -> nth i (zip_with f l m) c0 = f (nth i l a0) (nth i m b0).
Proof. intros H H'. apply nth_of. rewrite nth_zip. rewrite (nth_error_nth' l a0 H), (nth_error_nth' m b0 H'). reflexivity. Qed.

Lemma nth_mseq (f : nat -> R) n k : (k < n)%nat -> nth k (map f (seq 0 n)) 0 = f k.
Proof. intros H. rewrite (nth_indep _ 0 (f 0%nat)) by (rewrite map_length, seq_length; lia). rewrite map_nth. now rewrite seq_nth by lia. Qed.

Section E.
Variable fix_ : list vec. Variable pix : list pixel. Variable fl : orientpar. Variable C0 : calib.
Notation us := (filter (part_b pix fl) (seq 0 (length fix_))).
Lemma weights_pos os i : (length os <= length fix_)%nat -> (i < 2 * length fix_ + 10)%nat -> 0 <= nth i (weights fix_ fl os) 0.
Proof.
  intros L Hi. destruct (Nat.lt_ge_cases i (2 * length os)) as [H|H]. { rewrite (nth_of _ _ _ _ (w_point fix_ fl os L i H)). lra. }
  destruct (Nat.lt_ge_cases i (2 * length os + 10)) as [H'|H'].
  - replace i with (2 * length os + (i - 2 * length os))%nat by lia. rewrite (nth_of _ _ _ _ (w_ident fix_ fl os L (i - 2 * length os) ltac:(lia))).
    destruct (_ =? 0)%Z; [unfold POS_INF; apply pow_le|]; lra.
  - rewrite (nth_of _ _ _ _ (w_rest fix_ fl os L i (conj H' Hi))). lra.
Qed.
Lemma us_le : (length us <= length fix_)%nat.
Proof. eapply Nat.le_trans; [apply filter_le|now rewrite seq_length]. Qed.
Lemma omega_eq p X y b : tied fix_ pix fl C0 p X y b -> omega_sum fix_ fl p = unexplained X y (applied fl b).
Proof.
  intros (LU & B & -> & c1 & Y & ->). pose proof us_le as LE. assert (LO : (length (ps_obs p) <= length fix_)%nat) by lia.
  pose proof (len_weights fix_ fl _ LO) as LW. pose proof (len_dx fix_ _ LO) as LX. pose proof (len_dy fix_ (ps_obs p) (c_added C0) c1 LO) as LY.
  assert (LR : length (residuals fix_ fl p) = (2 * length fix_ + 10)%nat). { unfold residuals. rewrite zip_len, LX, Y, LY. lia. }
  unfold omega_sum. rewrite (zip_sum _ _ _ 0 0) by congruence. unfold unexplained.
  assert (LV : length (wY fix_ fl (ps_obs p) (c_added C0) c1) = (2 * length fix_ + 10)%nat) by (unfold wY; rewrite zip_len, LW, LY; lia).
  rewrite LR, LV. apply sum_to_ext. intros i Hi.
  assert (NR : nth i (residuals fix_ fl p) 0 = rowdot (ps_beta p) (firstn (numbers fl) (nth i (design_x fix_ (ps_obs p)) [])) - nth i (ps_y p) 0).
  { unfold residuals. rewrite (nth_zip_with _ _ _ _ [] 0) by (rewrite ?LX, ?Y, ?LY; lia). reflexivity. }
  rewrite NR, rowdot_sum, B, Y. rewrite (row_sum_ext _ (freeze fl b) (applied fl b)) by (apply freeze_applied).
  unfold wX, wY. rewrite (nth_zip_with _ _ _ _ 0 []) by (rewrite ?LX, ?LW; lia). rewrite (nth_zip_with _ _ _ _ 0 0) by (rewrite ?LY, ?LW; lia).
  rewrite row_sum_scale. pose proof (weights_pos (ps_obs p) i LO Hi) as WP. set (w := nth i (weights fix_ fl (ps_obs p)) 0) in *. clearbody w.
  pose proof (sqrt_sqrt w WP) as SS. set (s := sqrt w) in *. clearbody s. rewrite <- SS. ring.
Qed.
Lemma sigma0_eq p X y b : tied fix_ pix fl C0 p X y b -> sigma0 fix_ fl p = unit_deviation (unexplained X y (applied fl b)) (2 * length us + 10) (unknowns fl).
Proof.
  intros T. unfold sigma0, unit_deviation. rewrite (omega_eq _ _ _ _ T). destruct T as (LU & _). rewrite LU. change (unknowns fl) with (numbers fl).
  set (m := length us). set (n := numbers fl). clearbody m n. destruct (n <? 2 * m + 10)%nat eqn:E.
  - apply Nat.ltb_lt in E. assert (0 <? Z.of_nat m * 2 + 10 - Z.of_nat n = true)%Z as -> by (apply Z.ltb_lt; lia). do 3 f_equal. rewrite INR_IZR_INZ. f_equal. lia.
  - apply Nat.ltb_ge in E. assert (0 <? Z.of_nat m * 2 + 10 - Z.of_nat n = false)%Z as -> by (apply Z.ltb_ge; lia). reflexivity.
Qed.
(** the normal matrix *)
Lemma nth_firstn_lt {A} n (l : list A) i d : (i < n)%nat -> nth i (firstn n l) d = nth i l d.
Proof. intros H. rewrite <- (firstn_skipn n l) at 2. destruct (Nat.lt_ge_cases i (length l)) as [L|L]; [rewrite app_nth1; [reflexivity|rewrite firstn_length; lia]|]. rewrite !nth_overflow; [reflexivity| |]; rewrite ?app_length, ?firstn_length, ?skipn_length; lia. Qed.
Lemma dd (j k c : nat) : (j <> k)%nat -> (if (j =? c)%nat then 1 else 0) * (if (k =? c)%nat then 1 else 0) = 0.
Proof. intros N. destruct (j =? c)%nat eqn:A, (k =? c)%nat eqn:B; try ring. apply Nat.eqb_eq in A, B. congruence. Qed.
Lemma ident_sum j k : (j < 18)%nat -> (k < 18)%nat ->
  sumR (map (fun x => nth j x 0 * nth k x 0) ident_rows) = if (j =? k)%nat && (6 <=? j)%nat && (j <? 16)%nat then 1 else 0.
Proof.
  intros Hj Hk. unfold ident_rows. rewrite map_map.
  assert (E : map (fun x => nth j (map (fun j0 => if (j0 =? 6 + x)%nat then 1 else 0) (seq 0 19)) 0 * nth k (map (fun j0 => if (j0 =? 6 + x)%nat then 1 else 0) (seq 0 19)) 0) (seq 0 10) =
    map (fun x => (if (j =? 6 + x)%nat then 1 else 0) * (if (k =? 6 + x)%nat then 1 else 0)) (seq 0 10)).
  { apply map_ext. intros x. rewrite !(nth_mseq (fun j0 => if (j0 =? 6 + x)%nat then 1 else 0)) by lia. reflexivity. }
  rewrite E. destruct (Nat.eq_dec j k) as [<-|N].
  - clear E Hk. do 18 (destruct j as [|j]; [unfold sumR; cbn; ring|]). lia.
  - assert (j =? k = false)%nat as -> by (now apply Nat.eqb_neq). cbn [andb]. rewrite (map_ext _ (fun _ => 0)) by (intros; now apply dd). apply sumR_zero.
Qed.
Lemma repeat_sum j k n : sumR (map (fun x => nth j x 0 * nth k x 0) (repeat (repeat 0 19) n)) = 0.
Proof.
  assert (Z : nth j (repeat 0 19) 0 = 0) by (apply nth_zeros, Forall_forall; intros x Hx; now apply repeat_spec in Hx).
  induction n as [|n IH]; [reflexivity|]. change (repeat (repeat 0 19) (S n)) with (repeat 0 19 :: repeat (repeat 0 19) n). cbn [map]. change (sumR (?x :: ?t)) with (x + sumR t). rewrite IH, Z. ring.
Qed.
Lemma numbers_le : (numbers fl <= 18)%nat. Proof. unfold numbers. destruct (_ =? 0)%Z; lia. Qed.
Lemma entry_eq os j k : (length os <= length fix_)%nat -> (j < numbers fl)%nat -> (k < numbers fl)%nat ->
  sumR (map (fun x => nth j x 0 * nth k x 0) (design_x fix_ os)) = normal_entry (wX fix_ fl os) (2 * length os) j k.
Proof.
  intros LO Hj Hk. pose proof numbers_le. unfold design_x, pad_to. rewrite !map_app, !sumR_app, repeat_sum, ident_sum by lia. unfold normal_entry. rewrite Rplus_0_r. f_equal.
  rewrite (sumR_nth _ _ []). rewrite len_flat2. change (list R * list R * (R * R))%type with obs. apply sum_to_ext. intros i Hi.
  assert (EX : nth i (wX fix_ fl os) [] = firstn (numbers fl) (nth i (flat_map (fun o : obs => [fst (fst o); snd (fst o)]) os) [])).
  { apply nth_of. unfold wX. rewrite nth_zip, (w_point fix_ fl os LO i Hi). 
    assert (nth_error (design_x fix_ os) i = Some (nth i (flat_map (fun o : obs => [fst (fst o); snd (fst o)]) os) [])) as ->.
    { apply pad_app. rewrite nth_error_app1 by (rewrite len_flat2; exact Hi). apply nth_error_nth'. rewrite len_flat2. exact Hi. }
    now rewrite mul1. }
  rewrite EX, !nth_firstn_lt by lia. reflexivity.
Qed.
Lemma xtx_eq p X y b : tied fix_ pix fl C0 p X y b -> xtx fix_ fl p = normal_matrix X (2 * length us) (unknowns fl).
Proof.
  intros (LU & _ & -> & _). pose proof us_le. change (unknowns fl) with (numbers fl). unfold xtx, normal_matrix. apply map_ext_in. intros j Hj. apply in_seq in Hj.
  apply map_ext_in. intros k Hk. apply in_seq in Hk. rewrite <- LU. apply entry_eq; lia.
Qed.
Lemma nth_normal X m n j k : (j < n)%nat -> (k < n)%nat -> nth k (nth j (normal_matrix X m n) []) 0 = normal_entry X m j k.
Proof.
  intros Hj Hk. unfold normal_matrix. rewrite (nth_indep _ [] (map (fun k => normal_entry X m 0 k) (seq 0 n))) by (rewrite map_length, seq_length; lia).
  rewrite (map_nth (fun j => map (fun k => normal_entry X m j k) (seq 0 n))), seq_nth by lia. rewrite nth_mseq by lia. reflexivity.
Qed.
(** the diagonal of an inverse of the normal matrix is positive *)
Lemma diag_pos X t n W i : (n <= 18)%nat -> inverts n (normal_matrix X t n) W -> (i < n)%nat -> 0 < W i i.
Proof.
  intros LN INV Hi. set (D := map (fun i => nth i X []) (seq 0 t) ++ ident_rows).
  assert (N : forall j l, (j < n)%nat -> (l < n)%nat -> nth l (nth j (normal_matrix X t n) []) 0 = sumR (map (fun x => nth j x 0 * nth l x 0) D)).
  { intros j l Hj Hl. rewrite nth_normal by assumption. unfold D. rewrite map_app, sumR_app, ident_sum by lia. rewrite map_map. reflexivity. }
  set (u := fun x : list R => sum_to n (fun l => nth l x 0 * W l i)).
  assert (NW : forall j, (j < n)%nat -> sumR (map (fun x => nth j x 0 * u x) D) = if (j =? i)%nat then 1 else 0).
  { intros j Hj. rewrite <- (INV j i Hj Hi). rewrite (sum_to_ext n _ (fun l => sumR (map (fun x => nth j x 0 * (nth l x 0 * W l i)) D))).
    2:{ intros l Hl. rewrite N by assumption. rewrite Rmult_comm, <- sumR_scal. f_equal. apply map_ext. intros x. ring. }
    rewrite sum_to_R, sumR_swap. f_equal. apply map_ext. intros x. rewrite sumR_scal. reflexivity. }
  assert (Q : W i i = sumR (map (fun x => u x ^ 2) D)).
  { transitivity (sum_to n (fun j => W j i * (if (j =? i)%nat then 1 else 0))).
    - unfold sum_to. assert (G : forall s m, (s <= i < s + m)%nat -> fold_right Rplus 0 (map (fun j => W j i * (if (j =? i)%nat then 1 else 0)) (seq s m)) = W i i).
      { assert (G0 : forall m s, (i < s)%nat -> fold_right Rplus 0 (map (fun j => W j i * (if (j =? i)%nat then 1 else 0)) (seq s m)) = 0).
        { induction m; intros s Hs; cbn; [reflexivity|]. rewrite IHm by lia. destruct (s =? i)%nat eqn:E; [apply Nat.eqb_eq in E; lia|ring]. }
        intros s m. revert s. induction m; intros s Hs; [lia|]. cbn. destruct (s =? i)%nat eqn:E.
        - apply Nat.eqb_eq in E. subst s. rewrite G0 by lia. ring.
        - apply Nat.eqb_neq in E. rewrite IHm by lia. ring. }
      symmetry. apply G. lia.
    - rewrite (sum_to_ext n _ (fun j => sumR (map (fun x => W j i * (nth j x 0 * u x)) D))).
      2:{ intros j Hj. rewrite <- (NW j Hj). now rewrite <- sumR_scal. }
      rewrite sum_to_R, sumR_swap. f_equal. apply map_ext. intros x.
      rewrite (map_ext _ (fun j => u x * (nth j x 0 * W j i))) by (intros; ring). rewrite sumR_scal. fold (sum_to n (fun j => nth j x 0 * W j i)). change (sumR (map (fun a => nth a x 0 * W a i) (seq 0 n))) with (u x). ring. }
  destruct (sumR_sq u D) as (P & Z). rewrite <- Q in P, Z. destruct P as [P|P]; [exact P|]. exfalso. specialize (Z (eq_sym P)).
  specialize (NW i Hi). rewrite Nat.eqb_refl in NW. rewrite (map_ext_in _ (fun _ => 0)) in NW. 2:{ intros x Hx. rewrite (Z x Hx). ring. }
  rewrite sumR_zero in NW. lra.
Qed.
End E.

Section F.
Variable mm : mmpar. Variable cp : cpar. Variable tol : R. Variable lstsq : list (list R) -> list R -> result (nat -> R).
Variable rank : list (list R) -> nat. Variables inv pinv : list (list R) -> result (nat -> nat -> R).
Variable fix_ : list vec. Variable pix : list pixel. Variable fl : orientpar. Variables h drad : R.
Notation us := (filter (part_b pix fl) (seq 0 (length fix_))).
Notation orient_e := (orient_est mm cp tol lstsq rank inv pinv fix_ pix fl h drad).
Lemma orient_est_ok est c c' r est' : orient_e est c = (c', Ok (r, est')) ->
  exists c1 p W, passes mm cp tol lstsq fix_ pix fl h drad (c_glass c) (c_added c) 79 c = (c1, Ok p) /\ xpx rank inv pinv fix_ fl p = Ok W /\
  est' = write_estimates fl (sigma0 fix_ fl p) W est /\ orient mm cp tol lstsq fix_ pix fl h drad c = (c', Ok r).
Proof.
  unfold orient_est, orient, sbind, sget, slift, smod, sret. destruct (passes _ _ _ _ _ _ _ _ _ (c_glass c) (c_added c) 79 c) as [c1 [p|e]] eqn:EP; [|discriminate].
  destruct (xpx rank inv pinv fix_ fl p) as [W|e] eqn:EW; [|discriminate]. intros E. exists c1, p, W. split; [reflexivity|]. split; [exact EW|].
  destruct (ps_stop p); apply pair_equal_spec in E; destruct E as [<- E]; injection E as <- <-; auto.
Qed.
Lemma estimates_ok est c c' r est' : orient_e est c = (c', Ok (r, est')) ->
  exists bs b X y g p W, (length bs <= 79)%nat /\ (forall a, nth_error bs 0 = Some a -> ~ small fl a) /\ lstsq X y = Ok b /\
  full_system mm cp tol fix_ pix fl h drad (glass_dir1 (c_glass c)) (glass_dir2 (c_glass c)) us c (calibrated c (map (applied fl) bs) g) X y /\ gl fix_ pix fl c bs g /\
  tied fix_ pix fl c p X y b /\ xpx rank inv pinv fix_ fl p = Ok W /\ est' = write_estimates fl (sigma0 fix_ fl p) W est /\
  (forall a, nth_error (bs ++ [b]) 0 = Some a -> solved mm cp tol lstsq fix_ pix fl h drad c (bs ++ [b]) 0 a).
Proof.
  intros E. apply orient_est_ok in E. destruct E as (c1 & p & W & EP & EW & ES & _).
  destruct (passes_sys mm cp tol lstsq fix_ pix fl h drad c 79 [] (c_glass c) c c1 p EP) as (bs & b & g' & LB & FB & SB & UB & GB & STB & KB & XB & yB & gB & R1 & R2 & R3 & TI & R4).
  { cbn [map]. symmetry. apply calibrated_nil. } { intros _. reflexivity. }
  cbn [app length plus] in *. exists bs, b, XB, yB, gB, p, W. split; [exact LB|]. split. { intros a A. destruct bs as [|b1 bs]; [discriminate|]. injection A as <-. now apply Forall_cons_iff in FB. }
  split; [exact R1|]. split; [exact R2|]. split; [exact R3|]. split; [exact TI|]. split; [exact EW|]. split; [exact ES|]. intros a A. exact (SB 0%nat a A).
Qed.
Lemma nth_estimates s0 W est i : (i < length est)%nat -> nth_error (write_estimates fl s0 W est) i = Some (if (i <? numbers fl)%nat then np_mul s0 (np_sqrt (W i i)) else if (i =? 19)%nat then s0 else nth i est None).
Proof.
  intros Hi. unfold write_estimates. rewrite nth_error_map. assert (nth_error (seq 0 (length est)) i = Some i) as ->; [|reflexivity].
  rewrite (nth_error_nth' _ 0%nat) by (rewrite seq_length; exact Hi). now rewrite seq_nth.
Qed.
End F.
