(** Lemmas for C92. *)
From Verif Require Import Base F64 Model_corr Model_seg Model_img Spec_img.
Local Open Scope Z_scope.

Lemma fold_sum (f : Z -> Z) n : forall a acc,
  fold_left (fun s k => s + f k) (zrange a (a + Z.of_nat n)) acc = acc + sum_upto (fun k => f (a + Z.of_nat k)) n.
Proof.
  assert (SC : forall (g : nat -> Z) k, sum_upto g (S k) = g O + sum_upto (fun i => g (S i)) k).
  { intros g k. induction k as [|k IH]; [cbn; lia|]. cbn [sum_upto] in *. lia. }
  assert (EX : forall (g h : nat -> Z) k, (forall i, g i = h i) -> sum_upto g k = sum_upto h k).
  { intros g h k E. induction k as [|k IH]; [reflexivity|]. cbn [sum_upto]. rewrite IH, E. reflexivity. }
  induction n as [|n IH]; intros a acc.
  - rewrite zrange_empty by lia. cbn. lia.
  - rewrite zrange_cons by lia. cbn [fold_left]. replace (a + Z.of_nat (S n)) with (a + 1 + Z.of_nat n) by lia. rewrite IH, SC.
    replace (a + Z.of_nat 0) with a by lia. rewrite (EX (fun k => f (a + 1 + Z.of_nat k)) (fun k => f (a + Z.of_nat (S k)))); [lia|].
    intros i. f_equal. lia.
Qed.
Lemma sum_ext (f g : nat -> Z) n : (forall k, (k < n)%nat -> f k = g k) -> sum_upto f n = sum_upto g n.
Proof. induction n as [|n IH]; intros E; [reflexivity|]. cbn [sum_upto]. rewrite IH by (intros; apply E; lia). rewrite E by lia. reflexivity. Qed.
Lemma sum_le (f g : nat -> Z) n : (forall k, (k < n)%nat -> f k <= g k) -> sum_upto f n <= sum_upto g n.
Proof. induction n as [|n IH]; intros E; [cbn; lia|]. cbn [sum_upto]. specialize (E n) as E0. assert (sum_upto f n <= sum_upto g n) by (apply IH; intros; apply E; lia). lia. Qed.
Lemma sum_const c n : sum_upto (fun _ => c) n = Z.of_nat n * c.
Proof. induction n as [|n IH]; [cbn; lia|]. cbn [sum_upto]. rewrite IH. lia. Qed.
Lemma sum_affine (f : nat -> Z) c e n : sum_upto (fun k => c * f k + e) n = c * sum_upto f n + Z.of_nat n * e.
Proof. induction n as [|n IH]; [cbn; lia|]. cbn [sum_upto]. rewrite IH. lia. Qed.
Lemma around_ext f g c c' d : (forall a, Z.abs a <= Z.of_nat d -> f (c + a) = g (c' + a)) -> around f c d = around g c' d.
Proof.
  intros E. unfold around. apply sum_ext. intros k K. replace (c - Z.of_nat d + Z.of_nat k) with (c + (Z.of_nat k - Z.of_nat d)) by lia.
  replace (c' - Z.of_nat d + Z.of_nat k) with (c' + (Z.of_nat k - Z.of_nat d)) by lia. apply E. lia.
Qed.
Lemma around_le f g c d : (forall a, Z.abs a <= Z.of_nat d -> f (c + a) <= g (c + a)) -> around f c d <= around g c d.
Proof.
  intros E. unfold around. apply sum_le. intros k K. replace (c - Z.of_nat d + Z.of_nat k) with (c + (Z.of_nat k - Z.of_nat d)) by lia. apply E. lia.
Qed.
Lemma around_const e c d : around (fun _ => e) c d = (2 * Z.of_nat d + 1) * e.
Proof. unfold around. rewrite sum_const. f_equal. lia. Qed.
Lemma around_affine f a e c d : around (fun i => a * f i + e) c d = a * around f c d + (2 * Z.of_nat d + 1) * e.
Proof. unfold around. rewrite (sum_affine (fun k => f (c - Z.of_nat d + Z.of_nat k))). do 2 f_equal. lia. Qed.

Lemma filter_line_is len d f i :
  filter_line len (Z.of_nat d) f i = around (fun k => if (0 <=? k) && (k <? len) then f k else 0) i d / (2 * Z.of_nat d + 1).
Proof.
  unfold filter_line. replace (i + Z.of_nat d + 1) with (i - Z.of_nat d + Z.of_nat (2 * d + 1)) by lia.
  rewrite (fold_sum (fun k => if (0 <=? k) && (k <? len) then f k else 0)). rewrite Z.add_0_l. reflexivity.
Qed.
(** the two passes *)
Definition box (m : image) (d : nat) (y x : Z) : Z :=
  around (fun i => around (fun j => level m j i) y d / (2 * Z.of_nat d + 1)) x d / (2 * Z.of_nat d + 1).
Lemma uniform_px m d y x : (1 <= d)%nat -> im_px (uniform_filter m (2 * Z.of_nat d + 1)) y x = box m d y x.
Proof.
  intros D. unfold uniform_filter. destruct (Z.leb_spec (2 * Z.of_nat d + 1) 1); [lia|].
  replace ((2 * Z.of_nat d + 1) / 2) with (Z.of_nat d) by (rewrite Z.mul_comm, Z.div_add_l by lia; change (1 / 2) with 0; lia).
  cbn [im_px]. rewrite filter_line_is. unfold box. f_equal. apply around_ext. intros a A. rewrite filter_line_is.
  destruct ((0 <=? x + a) && (x + a <? im_w m)) eqn:W.
  - f_equal. apply around_ext. intros b B. unfold level. rewrite <- andb_assoc, W, andb_true_r. reflexivity.
  - rewrite (around_ext (fun j => level m j (x + a)) (fun _ => 0) y y).
    + rewrite around_const. rewrite Z.mul_0_r. reflexivity.
    + intros b _. unfold level. rewrite <- andb_assoc, W, andb_false_r. reflexivity.
Qed.
Lemma uniform_size m s : im_h (uniform_filter m s) = im_h m /\ im_w (uniform_filter m s) = im_w m.
Proof. unfold uniform_filter. destruct (s <=? 1); split; reflexivity. Qed.
Lemma level_in m y x : inside m y x -> level m y x = im_px m y x.
Proof.
  intros [A B]. unfold level. destruct (Z.leb_spec 0 y), (Z.ltb_spec y (im_h m)), (Z.leb_spec 0 x), (Z.ltb_spec x (im_w m)); cbn [andb]; try lia; reflexivity.
Qed.
Lemma level_out m y x : ~ inside m y x -> level m y x = 0.
Proof.
  intros A. unfold level. destruct (Z.leb_spec 0 y), (Z.ltb_spec y (im_h m)), (Z.leb_spec 0 x), (Z.ltb_spec x (im_w m)); cbn [andb]; try reflexivity.
  exfalso. apply A. split; lia.
Qed.
Lemma inside_dec m y x : inside m y x \/ ~ inside m y x.
Proof. unfold inside. lia. Qed.
Lemma level_bytes m y x : bytes m -> 0 <= level m y x < 256.
Proof. intros B. destruct (inside_dec m y x) as [I|I]; [rewrite level_in by exact I; now apply B|rewrite level_out by exact I; lia]. Qed.
(** two passes of cutting lose less than two grey levels *)
Lemma box_mean m d y x : let n := 2 * Z.of_nat d + 1 in
  window_sum m d y x - 2 * (n * (n - 1)) <= n * n * box m d y x <= window_sum m d y x.
Proof.
  cbv zeta. set (n := 2 * Z.of_nat d + 1). assert (P : 0 < n) by lia.
  set (col := fun i => around (fun j => level m j i) y d). change (window_sum m d y x) with (around col x d).
  assert (C : forall i, col i - (n - 1) <= n * (col i / n) <= col i).
  { intros i. pose proof (Z.div_mod (col i) n ltac:(lia)). pose proof (Z.mod_pos_bound (col i) n P). lia. }
  set (s := around (fun i => col i / n) x d). assert (B : box m d y x = s / n) by reflexivity. rewrite B.
  assert (E1 : n * s <= around col x d).
  { replace (n * s) with (around (fun i => n * (col i / n) + 0) x d) by (rewrite around_affine; fold n s; lia). apply around_le. intros a _. specialize (C (x + a)). lia. }
  assert (E2 : around col x d - n * (n - 1) <= n * s).
  { replace (n * s) with (around (fun i => n * (col i / n) + 0) x d) by (rewrite around_affine; fold n s; lia).
    replace (around col x d - n * (n - 1)) with (around (fun i => 1 * col i + (- (n - 1))) x d) by (rewrite around_affine; fold n; lia).
    apply around_le. intros a _. specialize (C (x + a)). lia. }
  pose proof (Z.div_mod s n ltac:(lia)). pose proof (Z.mod_pos_bound s n P). nia.
Qed.
Lemma box_flat m d y x g : (forall a b, Z.abs a <= Z.of_nat d -> Z.abs b <= Z.of_nat d -> level m (y + a) (x + b) = g) -> box m d y x = g.
Proof.
  intros F. unfold box. set (n := 2 * Z.of_nat d + 1). rewrite (around_ext _ (fun _ => g) x x).
  - rewrite around_const. fold n. rewrite Z.mul_comm. apply Z.div_mul. lia.
  - intros b B. rewrite (around_ext _ (fun _ => g) y y) by (intros; now apply F). rewrite around_const. fold n. rewrite Z.mul_comm. apply Z.div_mul. lia.
Qed.
Lemma box_bytes m d y x : bytes m -> 0 <= box m d y x < 256.
Proof.
  intros B. unfold box. set (n := 2 * Z.of_nat d + 1). assert (P : 0 < n) by lia.
  assert (Q : forall f c, (forall i, 0 <= f i < 256) -> 0 <= around f c d / n < 256).
  { intros f c F. assert (0 <= around f c d <= n * 255).
    { split.
      - replace 0 with (around (fun _ => 0) c d) by (rewrite around_const; lia). apply around_le. intros. apply F.
      - unfold n. rewrite <- (around_const 255 c d). apply around_le. intros a _. specialize (F (c + a)). lia. }
    split; [apply Z.div_pos; lia|apply Z.div_lt_upper_bound; lia]. }
  apply Q. intros i. apply Q. intros j. now apply level_bytes.
Qed.
Lemma looks_level m y x m' y' x' d : looks_like m y x m' y' x' d -> forall a b, Z.abs a <= d -> Z.abs b <= d -> level m (y + a) (x + b) = level m' (y' + a) (x' + b).
Proof.
  intros L a b A B. destruct (L a b A B) as [I E]. destruct (inside_dec m (y + a) (x + b)) as [J|J].
  - rewrite !level_in by tauto. now apply E.
  - rewrite !level_out by tauto. reflexivity.
Qed.
Lemma box_local m y x m' y' x' d : looks_like m y x m' y' x' (Z.of_nat d) -> box m d y x = box m' d y' x'.
Proof.
  intros L. unfold box. f_equal. apply around_ext. intros b B. f_equal. apply around_ext. intros a A. now apply (looks_level _ _ _ _ _ _ _ L).
Qed.
(** the image before any additional filter *)
Definition ored (m : image) (dim : Z) : image := image_or m (uniform_filter m (dim * 2 + 1)).
Lemma ored_px m dim y x : im_px (ored m dim) y x = if 1 <=? dim then Z.lor (im_px m y x) (box m (Z.to_nat dim) y x) else im_px m y x.
Proof.
  unfold ored, image_or. cbn [im_px]. destruct (Z.leb_spec 1 dim).
  - rewrite <- (Z2Nat.id dim) at 1 by lia. rewrite (Z.mul_comm _ 2), uniform_px by lia. reflexivity.
  - unfold uniform_filter. destruct (Z.leb_spec (dim * 2 + 1) 1); [|lia]. apply Z.lor_diag.
Qed.
Lemma ored_inside m dim y x : inside (ored m dim) y x <-> inside m y x.
Proof. reflexivity. Qed.
Lemma lor_byte a b : 0 <= a < 256 -> 0 <= b < 256 -> a <= Z.lor a b < 256.
Proof.
  intros A B. assert (H : forall z, 0 <= z -> z < 256 <-> z = Z.land z 255).
  { intros z P. change 255 with (Z.ones 8). rewrite Z.land_ones by lia. change (2 ^ 8) with 256. split; intros E.
    - symmetry. apply Z.mod_small. lia.
    - rewrite E. pose proof (Z.mod_pos_bound z 256). lia. }
  assert (N : 0 <= Z.lor a b) by (apply Z.lor_nonneg; lia). split.
  - apply (Z.ldiff_le a (Z.lor a b)); [exact N|].
    apply Z.bits_inj'. intros k K. rewrite Z.ldiff_spec, Z.lor_spec, Z.bits_0. destruct (Z.testbit a k), (Z.testbit b k); reflexivity.
  - apply H; [exact N|]. rewrite Z.land_lor_distr_l. rewrite <- (proj1 (H a ltac:(lia)) ltac:(lia)), <- (proj1 (H b ltac:(lia)) ltac:(lia)). reflexivity.
Qed.
Lemma ored_bytes m dim : bytes m -> bytes (ored m dim).
Proof.
  intros B y x I. rewrite ored_px. change (inside m y x) in I. specialize (B y x I) as P. destruct (1 <=? dim); [|exact P].
  pose proof (box_bytes m (Z.to_nat dim) y x B) as Q. pose proof (lor_byte _ _ P Q). lia.
Qed.
Lemma looks_weaken m y x m' y' x' d e a b : looks_like m y x m' y' x' d -> Z.abs a + e <= d -> Z.abs b + e <= d ->
  looks_like m (y + a) (x + b) m' (y' + a) (x' + b) e.
Proof.
  intros L A B p q P Q. rewrite <- !Z.add_assoc. apply L; lia.
Qed.
Lemma ored_local m y x m' y' x' dim e : 0 <= e -> looks_like m y x m' y' x' (Z.max dim 0 + e) -> looks_like (ored m dim) y x (ored m' dim) y' x' e.
Proof.
  intros E L a b A B. assert (L0 := L a b ltac:(lia) ltac:(lia)). destruct L0 as [I P]. split; [exact I|]. intros J. change (inside m (y + a) (x + b)) in J.
  rewrite !ored_px. specialize (P J). destruct (Z.leb_spec 1 dim); [|exact P]. rewrite P. f_equal. apply box_local.
  rewrite Z2Nat.id by lia. eapply looks_weaken; [exact L| |]; lia.
Qed.
