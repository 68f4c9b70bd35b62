(** C84: array forms do row by row what the scalar functions do; the parallel
    matrix product does not depend on the order of the rows.  C42: vec_cmp. *)
From Coq Require Import Reals Lra Permutation.
From Verif Require Import F64 Lib Model_geo Model_arr Spec_geo Proof_geo Prop_geo Base.
Local Open Scope R_scope.

Lemma each_gen {A B} (f : A -> result B) l : forall out r,
  foldM (fun out a => do b <- f a; Ok (out ++ [b])) l out = Ok r <->
  exists tl, r = out ++ tl /\ Forall2 (fun a b => f a = Ok b) l tl.
Proof.
  induction l as [|a l IH]; intros out r; cbn [foldM].
  - split.
    + intros [= <-]. exists []. rewrite app_nil_r. auto.
    + intros (tl & -> & H). inversion H. now rewrite app_nil_r.
  - destruct (f a) as [b|e] eqn:E; cbn [bind].
    + rewrite IH. split.
      * intros (tl & -> & H). exists (b :: tl). rewrite <- app_assoc. split; auto.
      * intros (tl & -> & H). inversion H as [|? b' ? tl' Hb Ht]; subst. rewrite E in Hb. injection Hb as ->. exists tl'. rewrite <- app_assoc. auto.
    + split; [discriminate|]. intros (tl & _ & H). inversion H; subst. congruence.
Qed.

Lemma each_ok {A B} (f : A -> result B) l r : each f l = Ok r <-> Forall2 (fun a b => f a = Ok b) l r.
Proof.
  unfold each. rewrite each_gen. split; [intros (tl & -> & H); exact H|intros H; exists r; auto].
Qed.

Lemma each_fails {A B} (f : A -> result B) l e : each f l = Exn e ->
  exists i a, nth_error l i = Some a /\ f a = Exn e /\ forall j b, (j < i)%nat -> nth_error l j = Some b -> exists r, f b = Ok r.
Proof.
  unfold each. enough (G : forall out, foldM (fun out a => do b <- f a; Ok (out ++ [b])) l out = Exn e ->
    exists i a, nth_error l i = Some a /\ f a = Exn e /\ forall j b, (j < i)%nat -> nth_error l j = Some b -> exists r, f b = Ok r) by apply G.
  induction l as [|a l IH]; intros out; cbn [foldM]; [discriminate|].
  destruct (f a) as [b|e'] eqn:E; cbn [bind].
  - intros H. destruct (IH _ H) as (i & x & N & F & G). exists (Datatypes.S i), x. split; auto. split; auto.
    intros [|j] y Hj Hy; [cbn in Hy; injection Hy as <-; eauto|]. apply (G j); auto. lia.
  - intros [= ->]. exists O, a. split; auto. split; auto. intros j ? Hj. lia.
Qed.

Lemma F2_nth {A B} (P : A -> B -> Prop) l r : Forall2 P l r <->
  length l = length r /\ forall i a b, nth_error l i = Some a -> nth_error r i = Some b -> P a b.
Proof.
  split.
  - induction 1 as [|a b l r H HF (L & IH)]; [split; auto; intros [|]; discriminate|]. cbn [length]. split; [lia|].
    intros [|i] x y; cbn [nth_error]; [intros [= <-] [= <-]; auto|apply IH].
  - revert r. induction l as [|a l IH]; intros [|b r] (L & H); try discriminate; constructor.
    + apply (H O); reflexivity.
    + apply IH. split; [cbn in L; lia|]. intros i x y. apply (H (Datatypes.S i)).
Qed.

(** image_coordinates returns one row per point, the projection of that point;
    it succeeds exactly if every row has three numbers and every projection
    succeeds, and otherwise raises what the first bad row raises *)
Theorem C84_image_coordinates : forall rows c mm,
  (forall out, image_coordinates rows c mm = Ok out <->
    length out = length rows /\
    forall i row xy, nth_error rows i = Some row -> nth_error out i = Some xy ->
      exists x y z, row = [x; y; z] /\ img_coord (V x y z) c mm = Ok xy) /\
  (forall e, image_coordinates rows c mm = Exn e ->
    exists i row, nth_error rows i = Some row /\
      ((length row <> 3%nat /\ e = ValueError) \/ exists x y z, row = [x; y; z] /\ img_coord (V x y z) c mm = Exn e)).
Proof.
  intros rows c mm. split.
  - intros out. unfold image_coordinates. rewrite each_ok, F2_nth. split; intros (L & H); (split; [auto|]); intros i row xy Hr Ho.
    + specialize (H i row xy Hr Ho). destruct row as [|x [|y [|z [|? ?]]]]; try discriminate. eauto.
    + destruct (H i row xy Hr Ho) as (x & y & z & -> & E). exact E.
  - intros e H. destruct (each_fails _ _ _ H) as (i & row & N & F & _). exists i, row. split; auto.
    destruct row as [|x [|y [|z [|? ?]]]]; try (left; split; [discriminate|congruence]). right. exists x, y, z. auto.
Qed.
Print Assumptions C84_image_coordinates.

(** the same for the coordinates without lens distortion *)
Theorem C84_flat_image_coordinates : forall rows c mm,
  (forall out, flat_image_coordinates rows c mm = Ok out <->
    length out = length rows /\
    forall i p xy, nth_error rows i = Some p -> nth_error out i = Some xy -> flat_image_coord p c mm = Ok xy) /\
  (forall e, flat_image_coordinates rows c mm = Exn e -> exists p, In p rows /\ flat_image_coord p c mm = Exn e).
Proof.
  intros rows c mm. split.
  - intros out. unfold flat_image_coordinates. rewrite each_ok, F2_nth. split; intros (L & H); auto.
  - intros e H. destruct (each_fails _ _ _ H) as (i & p & N & F & _). exists p. split; auto. eapply nth_error_In; eauto.
Qed.
Print Assumptions C84_flat_image_coordinates.

(** pixel and metric arrays: the scalar conversion of every row, so the two are
    inverse *)
Theorem C84_pixel_metric : forall imx imy px py,
  (forall pixel, arr_pixel_to_metric pixel imx imy px py =
     map (fun p => pixel_to_metric (IZR (fst p)) (IZR (snd p)) imx imy px py) pixel) /\
  (forall metric, arr_metric_to_pixel metric imx imy px py = map (fun p => metric_to_pixel (fst p) (snd p) imx imy px py) metric) /\
  (px <> 0 -> py <> 0 -> forall pixel,
     arr_metric_to_pixel (arr_pixel_to_metric pixel imx imy px py) imx imy px py = map (fun p => (IZR (fst p), IZR (snd p))) pixel).
Proof.
  intros imx imy px py. split; [reflexivity|]. split; [reflexivity|]. intros X Y pixel.
  unfold arr_metric_to_pixel, arr_pixel_to_metric. rewrite map_map. apply map_ext. intros [u v]. cbn [fst snd]. f_equal; field; auto.
Qed.
Print Assumptions C84_pixel_metric.

(** ---- matrix product ---- *)
(** entry (i, j), and the sum of the products along row i of b and column j of c,
    in this order, as the machine adds them *)
Definition entry (m : list (list f64)) (i j : Z) : f64 := nth (Z.to_nat j) (nth (Z.to_nat i) m []) fzero.
Definition row_times_column (b c : list (list f64)) (n i j : Z) : f64 :=
  fold_left (fun s l => fadd s (fmul (entry b i l) (entry c l j))) (zrange 0 n) fzero.
Definition shape (m : list (list f64)) (r k : Z) : Prop :=
  Z.of_nat (length m) = r /\ forall row, In row m -> Z.of_nat (length row) = k.

Lemma get_entry m r k i j : shape m r k -> (0 <= i < r)%Z -> (0 <= j < k)%Z ->
  exists row, pyget m i = Ok row /\ nth_error m (Z.to_nat i) = Some row /\ Z.of_nat (length row) = k /\ pyget row j = Ok (entry m i j).
Proof.
  intros (R & K) Hi Hj. destruct (pyget_in_range m i) as (row & E & N); [lia|]. exists row. split; auto. split; auto.
  assert (L : Z.of_nat (length row) = k) by (apply K; eapply nth_error_In; eauto). split; auto.
  unfold entry. rewrite (nth_error_nth _ _ _ N). destruct (pyget_in_range row j) as (x & Ex & Nx); [lia|]. rewrite Ex. f_equal.
  symmetry. now apply nth_error_nth.
Qed.

Lemma matmul_entry_ok b c m n k i j : shape b m n -> shape c n k -> (0 <= i < m)%Z -> (0 <= j < k)%Z ->
  matmul_entry b c i j n = Ok (row_times_column b c n i j).
Proof.
  intros HB HC Hi Hj. unfold matmul_entry, row_times_column.
  set (F := fun (temp : f64) (ll : Z) => do br <- pyget b i; do x <- pyget br ll; do cr <- pyget c ll; do y <- pyget cr j; Ok (fadd temp (fmul x y))).
  assert (HF : forall s x, (0 <= x < n)%Z -> F s x = Ok (fadd s (fmul (entry b i x) (entry c x j)))).
  { intros s x Hx. unfold F. destruct (get_entry b m n i x HB Hi Hx) as (br & E1 & _ & _ & E2). rewrite E1. cbn [bind]. rewrite E2. cbn [bind].
    destruct (get_entry c n k x j HC Hx Hj) as (cr & E3 & _ & _ & E4). rewrite E3. cbn [bind]. rewrite E4. reflexivity. }
  clearbody F.
  assert (G : forall l s, (forall x, In x l -> (0 <= x < n)%Z) ->
    foldM F l s = Ok (fold_left (fun s l => fadd s (fmul (entry b i l) (entry c l j))) l s)).
  { induction l as [|x l IH]; intros s H; cbn [foldM fold_left]; auto.
    rewrite HF by (apply H; now left). cbn [bind]. apply IH. intros y Hy. apply H. now right. }
  apply G. intros x. rewrite In_zrange. auto.
Qed.

Lemma entry_upd m i j i' j' v row : nth_error m (Z.to_nat i) = Some row -> (0 <= i)%Z -> (0 <= j < Z.of_nat (length row))%Z -> (0 <= i')%Z -> (0 <= j')%Z ->
  entry (upd m (Z.to_nat i) (upd row (Z.to_nat j) v)) i' j' = if ((i' =? i) && (j' =? j))%Z then v else entry m i' j'.
Proof.
  intros N Hi Hj Hi' Hj'. unfold entry. assert (L : (Z.to_nat i < length m)%nat) by (apply nth_error_Some; congruence).
  destruct (Z.eqb_spec i' i) as [->|D]; cbn [andb].
  - rewrite (nth_error_nth _ _ _ (nth_error_upd_eq m _ _ L)). destruct (Z.eqb_spec j' j) as [->|D'].
    + apply nth_error_nth. apply nth_error_upd_eq. lia.
    + rewrite (nth_error_nth _ _ _ N). rewrite <- !nth_default_eq. unfold nth_default. rewrite nth_error_upd_neq by lia. reflexivity.
  - rewrite <- !(nth_default_eq _ _ []). unfold nth_default. rewrite nth_error_upd_neq by lia. reflexivity.
Qed.

Lemma shape_upd m r k i j v row : shape m r k -> nth_error m i = Some row -> shape (upd m i (upd row j v)) r k.
Proof.
  intros (R & K) N. split; [now rewrite upd_length|]. intros x Hx. apply In_nth_error in Hx as (q & Hq).
  destruct (Nat.eq_dec q i) as [->|D].
  - rewrite nth_error_upd_eq in Hq by (apply nth_error_Some; congruence). injection Hq as <-. rewrite upd_length. apply K. eapply nth_error_In; eauto.
  - rewrite nth_error_upd_neq in Hq by auto. apply K. eapply nth_error_In; eauto.
Qed.

Lemma matmul_row_ok a b c m n k ra ka i : shape b m n -> shape c n k -> shape a ra ka -> (0 <= k <= ka)%Z -> (0 <= i < m)%Z -> (i < ra)%Z ->
  exists a', matmul_row b c n k i a = Ok a' /\ shape a' ra ka /\
    forall i' j, (0 <= i')%Z -> (0 <= j)%Z ->
      entry a' i' j = if ((i' =? i) && (j <? k))%Z then row_times_column b c n i' j else entry a i' j.
Proof.
  intros HB HC HA Hk Hi Hr. unfold matmul_row.
  destruct (loop_total (fun q a' => shape a' ra ka /\
    forall i' j, (0 <= i')%Z -> (0 <= j)%Z ->
      entry a' i' j = if ((i' =? i) && (j <? q))%Z then row_times_column b c n i' j else entry a i' j)
    (fun a j => do t <- matmul_entry b c i j n; do r <- pyget a i; do r' <- pyset r j t; pyset a i r') 0%Z k a) as (a' & E & S & G); [lia| | |eauto].
  - split; auto. intros i' j _ Hj. destruct (Z.ltb_spec j 0); [lia|]. now rewrite andb_false_r.
  - intros q s Hq (S & G). rewrite (matmul_entry_ok b c m n k i q) by (auto; lia). cbn [bind].
    destruct (get_entry s ra ka i q S) as (row & E1 & N & L & _); [lia|lia|]. rewrite E1. cbn [bind].
    rewrite pyset_in_range by lia. cbn [bind]. rewrite pyset_in_range by (destruct S; lia).
    eexists. split; [reflexivity|]. split; [now apply shape_upd|].
    intros i' j H1 H2. rewrite (entry_upd s i q i' j _ row) by (auto; lia). rewrite G by auto.
    destruct (Z.eqb_spec i' i) as [->|D]; cbn [andb]; auto.
    destruct (Z.eqb_spec j q) as [->|D'].
    + destruct (Z.ltb_spec q (q + 1)); [reflexivity|lia].
    + destruct (Z.ltb_spec j q), (Z.ltb_spec j (q + 1)); auto; lia.
Qed.

(** whatever the order in which the rows are done, every entry of the first m
    rows and k columns becomes the sum of products of row and column, and the
    other entries are left alone *)
Theorem C84_matmul : forall order a b c m n k ra ka,
  Permutation order (zrange 0 m) -> shape b m n -> shape c n k -> shape a ra ka -> (0 <= m <= ra)%Z -> (0 <= k <= ka)%Z ->
  exists a', matmul_numba_optimized order a b c n k = Ok a' /\ shape a' ra ka /\
    forall i j, (0 <= i)%Z -> (0 <= j)%Z ->
      entry a' i j = if ((i <? m) && (j <? k))%Z then row_times_column b c n i j else entry a i j.
Proof.
  intros order a b c m n k ra ka HP HB HC HA Hm Hk.
  assert (HI : forall x, In x order -> (0 <= x < m)%Z).
  { intros x Hx. apply In_zrange. eapply Permutation_in; eauto. }
  assert (G : forall l a, (forall x, In x l -> (0 <= x < m)%Z) -> shape a ra ka ->
    exists a', matmul_numba_optimized l a b c n k = Ok a' /\ shape a' ra ka /\
    forall i j, (0 <= i)%Z -> (0 <= j)%Z ->
      entry a' i j = if existsb (Z.eqb i) l && (j <? k)%Z then row_times_column b c n i j else entry a i j).
  { clear - HB HC Hm Hk. induction l as [|x l IH]; intros a H HA.
    - exists a. split; [reflexivity|]. split; auto.
    - destruct (matmul_row_ok a b c m n k ra ka x HB HC HA) as (a1 & E1 & S1 & G1); auto; [apply H; now left|specialize (H x (or_introl eq_refl)); lia|].
      destruct (IH a1) as (a' & E & S & G); auto. { intros y Hy. apply H. now right. }
      exists a'. unfold matmul_numba_optimized in *. cbn [foldM]. rewrite E1. cbn [bind]. split; auto. split; auto.
      intros i j Hi Hj. rewrite G, G1 by auto. cbn [existsb]. destruct (Z.eqb_spec i x) as [->|D]; cbn [orb]; auto.
      destruct (existsb (Z.eqb x) l), (j <? k)%Z; reflexivity. }
  destruct (G order a HI HA) as (a' & E & S & F). exists a'. split; auto. split; auto. intros i j Hi Hj. rewrite F by auto.
  replace (existsb (Z.eqb i) order) with (i <? m)%Z; auto. symmetry. destruct (Z.ltb_spec i m) as [L|L].
  - apply existsb_exists. exists i. split; [|apply Z.eqb_refl]. eapply Permutation_in; [symmetry; exact HP|]. apply In_zrange. lia.
  - destruct (existsb (Z.eqb i) order) eqn:X; auto. apply existsb_exists in X as (y & Hy & Ey). apply Z.eqb_eq in Ey. subst. apply HI in Hy. lia.
Qed.
Print Assumptions C84_matmul.

(** hence the result does not depend on the schedule of the parallel loop *)
Theorem C84_matmul_schedule : forall o1 o2 a b c m n k ra ka,
  Permutation o1 (zrange 0 m) -> Permutation o2 (zrange 0 m) ->
  shape b m n -> shape c n k -> shape a ra ka -> (0 <= m <= ra)%Z -> (0 <= k <= ka)%Z ->
  matmul_numba_optimized o1 a b c n k = matmul_numba_optimized o2 a b c n k.
Proof.
  intros o1 o2 a b c m n k ra ka P1 P2 HB HC HA Hm Hk.
  destruct (C84_matmul o1 a b c m n k ra ka) as (a1 & -> & (R1 & K1) & G1); auto.
  destruct (C84_matmul o2 a b c m n k ra ka) as (a2 & -> & (R2 & K2) & G2); auto.
  f_equal. apply nth_ext with (d := []) (d' := []); [lia|]. intros i Hi.
  assert (L1 : Z.of_nat (length (nth i a1 [])) = ka) by (apply K1; apply nth_In; auto).
  assert (L2 : Z.of_nat (length (nth i a2 [])) = ka) by (apply K2; apply nth_In; lia).
  apply nth_ext with (d := fzero) (d' := fzero); [lia|]. intros j Hj.
  specialize (G1 (Z.of_nat i) (Z.of_nat j)). specialize (G2 (Z.of_nat i) (Z.of_nat j)).
  unfold entry in G1, G2. rewrite !Nat2Z.id in G1, G2. rewrite G1, G2 by lia. reflexivity.
Qed.
Print Assumptions C84_matmul_schedule.

Example C84_case :
  let f := f_of_Z in
  let a := [[f 9; f 9]; [f 9; f 9]; [f 9; f 9]]%Z in let b := [[f 1; f 2; f 3]; [f 4; f 5; f 6]]%Z in let c := [[f 1; f 2]; [f 3; f 4]; [f 5; f 6]]%Z in
  matmul_numba_optimized [1; 0]%Z a b c 3 2 = Ok [[f 22; f 28]; [f 49; f 64]; [f 9; f 9]]%Z.
Proof. vm_compute. reflexivity. Qed.

(** ===== C42: comparison of vectors ===== *)
Definition within (tol : R) (x y : R) : Prop := Rabs (x - y) <= tol + / 100000 * Rabs y.

Theorem C42_cmp : forall a b tol, vec_cmp a b tol = true <->
  within tol (vx a) (vx b) /\ within tol (vy a) (vy b) /\ within tol (vz a) (vz b).
Proof.
  intros a b tol. unfold vec_cmp, within. rewrite !andb_true_iff.
  assert (G : forall P (d : {P} + {~ P}), (if d then true else false) = true <-> P) by (intros P [d|d]; split; auto; discriminate).
  rewrite !G. tauto.
Qed.
Print Assumptions C42_cmp.

(** vectors whose components differ by at most the tolerance compare equal ... *)
Theorem C42_cmp_close : forall a b tol,
  Rabs (vx a - vx b) <= tol -> Rabs (vy a - vy b) <= tol -> Rabs (vz a - vz b) <= tol -> vec_cmp a b tol = true.
Proof.
  intros a b tol H1 H2 H3. apply C42_cmp. unfold within.
  pose proof (Rabs_pos (vx b)). pose proof (Rabs_pos (vy b)). pose proof (Rabs_pos (vz b)). repeat split; lra.
Qed.
Print Assumptions C42_cmp_close.

(** ... but not only those, however small the tolerance and however large the
    difference; and the order of the arguments matters *)
Theorem C42_cmp_tolerance_refuted : forall tol D, 0 <= tol -> 0 < D ->
  exists a b, vec_cmp a b tol = true /\ Rabs (vx a - vx b) = D.
Proof.
  intros tol D Ht HD. exists (V (100001 * D) 0 0), (V (100000 * D) 0 0). split.
  - apply C42_cmp. unfold within. cbn [vx vy vz]. rewrite !Rminus_0_r, Rabs_R0. replace (100001 * D - 100000 * D) with D by ring.
    rewrite !Rabs_pos_eq by lra. repeat split; lra.
  - cbn [vx]. replace (100001 * D - 100000 * D) with D by ring. apply Rabs_pos_eq. lra.
Qed.
Print Assumptions C42_cmp_tolerance_refuted.

Theorem C42_cmp_symmetry_refuted : exists a b, vec_cmp a b 0 = true /\ vec_cmp b a 0 = false.
Proof.
  exists (V 99999 0 0), (V 100000 0 0). split.
  - apply C42_cmp. unfold within. cbn [vx vy vz]. rewrite !Rminus_0_r, Rabs_R0.
    replace (99999 - 100000) with (- (1)) by ring. rewrite Rabs_Ropp, Rabs_R1, Rabs_pos_eq by lra. repeat split; lra.
  - destruct (vec_cmp (V 100000 0 0) (V 99999 0 0) 0) eqn:E; auto. exfalso. apply C42_cmp in E as (E & _). unfold within in E. cbn [vx] in E.
    replace (100000 - 99999) with 1 in E by ring. rewrite Rabs_R1, Rabs_pos_eq in E by lra. lra.
Qed.
Print Assumptions C42_cmp_symmetry_refuted.

(** the norm of components is the distance from the origin *)
Theorem C42_norm3 : forall x y z, norm3 x y z ^ 2 = x ^ 2 + y ^ 2 + z ^ 2 /\ 0 <= norm3 x y z /\
  vx (vec_set x y z) = x /\ vy (vec_set x y z) = y /\ vz (vec_set x y z) = z.
Proof.
  intros x y z. unfold norm3, vnorm, vec_set. cbn [vx vy vz]. split; [|split; [apply sqrt_pos|auto]].
  rewrite <- Rsqr_pow2, Rsqr_sqrt by nra. ring.
Qed.
Print Assumptions C42_norm3.

Theorem C42_init : forall n, (0 <= n)%Z -> Z.of_nat (length (vec_init n)) = n /\ forall i x, nth_error (vec_init n) i = Some x -> x = 0.
Proof.
  intros n H. unfold vec_init. rewrite repeat_length. split; [lia|]. intros i x E. apply nth_error_In in E. now apply repeat_spec in E.
Qed.
Print Assumptions C42_init.
