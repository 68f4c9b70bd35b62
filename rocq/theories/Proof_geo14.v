(** Proofs for C72: the multimedia look-up table. *)
From Verif Require Import Base Lib Model_geo Model_geo2 Spec_geo Spec_geo2 Spec_geo3 Proof_geo Proof_geo2 Proof_geo4 Proof_geo5 Proof_geo6 Proof_geo8 Proof_geo9 Proof_geo12 Prop_geo Prop_geo2 Proof_geo13.
Local Open Scope R_scope.

(** rounding *)
Lemma trunc_mono x y : x <= y -> (trunc x <= trunc y)%Z.
Proof.
  intros H. unfold trunc. destruct (Rlt_dec x 0), (Rlt_dec y 0); try lra.
  - destruct (base_Int_part (- x)) as [A B], (base_Int_part (- y)) as [C D].
    enough (Int_part (- y) <= Int_part (- x))%Z by lia. apply le_IZR. apply Rnot_lt_le. intros L.
    assert (Int_part (- x) + 1 <= Int_part (- y))%Z by (apply lt_IZR in L; lia). apply IZR_le in H0. rewrite plus_IZR in H0. lra.
  - destruct (base_Int_part (- x)) as [A B], (base_Int_part y) as [C D].
    assert (0 <= Int_part (- x))%Z. { assert (-1 < Int_part (- x))%Z; [|lia]. apply lt_IZR. lra. }
    assert (0 <= Int_part y)%Z. { assert (-1 < Int_part y)%Z; [|lia]. apply lt_IZR. lra. } lia.
  - destruct (base_Int_part x) as [A B], (base_Int_part y) as [C D]. apply le_IZR. apply Rnot_lt_le. intros L.
    assert (Int_part y + 1 <= Int_part x)%Z by (apply lt_IZR in L; lia). apply IZR_le in H0. rewrite plus_IZR in H0. lra.
Qed.
Lemma trunc_neg x : x <= 0 -> IZR (trunc x) - 1 < x <= IZR (trunc x).
Proof.
  intros H. unfold trunc. destruct (Rlt_dec x 0).
  - destruct (base_Int_part (- x)) as [A B]. rewrite opp_IZR. lra.
  - replace x with 0 by lra. replace (Int_part 0) with 0%Z; [lra|]. symmetry. destruct (base_Int_part 0) as [A B].
    assert (-1 < Int_part 0)%Z by (apply lt_IZR; lra). assert (Int_part 0 < 1)%Z by (apply lt_IZR; lra). lia.
Qed.
Lemma fmod_2 x : x - fmod x 2 = 2 * IZR (trunc (x / 2)).
Proof. unfold fmod. ring. Qed.
Lemma up_2 x : x < x + (2 - fmod x 2) /\ x + (2 - fmod x 2) = 2 * IZR (trunc (x / 2)) + 2.
Proof.
  split; [|unfold fmod; ring]. enough (fmod x 2 < 2) by lra. unfold fmod. destruct (Rle_dec 0 x).
  - destruct (trunc_floor (x / 2)) as [[A B] _]; lra.
  - destruct (trunc_neg (x / 2)); lra.
Qed.
Lemma down_2 x : 0 <= x -> x - fmod x 2 <= x.
Proof. intros H. rewrite fmod_2. destruct (trunc_floor (x / 2)) as [[A B] _]; lra. Qed.
Lemma heights_2 lo hi : lo <= hi -> lo - fmod lo 2 + 2 <= hi + (2 - fmod hi 2).
Proof.
  intros H. destruct (up_2 hi) as [_ ->]. rewrite fmod_2. pose proof (trunc_mono (lo / 2) (hi / 2) ltac:(lra)) as M. apply IZR_le in M. lra.
Qed.

(** the transformed point *)
Lemma trans_lut c mm p : c_glass c <> vzero ->
  let '(q, _, _, z0) := trans_cam_point (e_pos (c_ext c)) (d_0 mm) (c_glass c) p in
  vz q = glass_height c p /\ vnorm (V (vx q) (vy q) 0) = axis_distance c p /\ z0 = glass_height c (e_pos (c_ext c)).
Proof.
  intros G. pose proof (trans_meaning (e_pos (c_ext c)) (d_0 mm) (c_glass c) p G) as T. cbv zeta in T.
  pose proof (norm_pos_ne _ G) as NG.
  assert (GG : dot (c_glass c) (c_glass c) = vnorm (c_glass c) * vnorm (c_glass c)) by (symmetry; apply vnorm_sq).
  assert (X : axis_distance c p = let '(q, _, _, _) := trans_cam_point (e_pos (c_ext c)) (d_0 mm) (c_glass c) p in vx q).
  { unfold axis_distance, trans_cam_point. destruct (Req_EM_T (vnorm (c_glass c)) 0) as [?|_]; [lra|]. cbn [vx]. f_equal.
    rewrite dot_unit by exact G. rewrite unit_scale by exact G. set (g := c_glass c) in *. set (n := vnorm g) in *.
    replace (dot (vsub p (e_pos (c_ext c))) g) with (dot p g - dot (e_pos (c_ext c)) g) by (vcomp; ring).
    apply vec_ext; unfold vsub, vscale; cbn [vx vy vz]; field; lra. }
  destruct (trans_cam_point _ _ _ _) as [[[q cp] cc] z0] eqn:E. destruct T as (Z & Z0 & Y & _).
  split; [exact Z|]. split; [|exact Z0]. rewrite Y, X. unfold vnorm at 1. cbn [vx vy vz].
  replace (vx q * vx q + 0 * 0 + 0 * 0) with (vx q * vx q) by ring. apply sqrt_square.
  unfold trans_cam_point in E. injection E as <- _ _ _. cbn [vx]. apply vnorm_pos.
Qed.
Lemma lut_z0_meaning c mm : c_glass c <> vzero -> lut_z0 c mm = glass_height c (e_pos (c_ext c)).
Proof.
  intros G. unfold lut_z0. pose proof (trans_lut c mm vzero G) as T. destruct (trans_cam_point _ _ _ _) as [[[q cp] cc] z0]. tauto.
Qed.

(** the extent *)
Definition within (st : R * R * R) (c : calib) (p : vec) : Prop :=
  let '(zl, zh, rm) := st in zl <= glass_height c p <= zh /\ axis_distance c p <= rm.
Definition wider (a b : R * R * R) : Prop :=
  let '(zl, zh, rm) := a in let '(zl', zh', rm') := b in zl' <= zl /\ zh <= zh' /\ rm <= rm'.
Lemma wider_trans a b d : wider a b -> wider b d -> wider a d.
Proof. destruct a as [[? ?] ?], b as [[? ?] ?], d as [[? ?] ?]. unfold wider. lra. Qed.
Lemma wider_refl a : wider a a. Proof. destruct a as [[? ?] ?]. unfold wider. lra. Qed.
Lemma within_wider a b c p : wider a b -> within a c p -> within b c p.
Proof. destruct a as [[? ?] ?], b as [[? ?] ?]. unfold wider, within. lra. Qed.
Lemma point_step c mm st p : c_glass c <> vzero -> wider st (lut_point c mm st p) /\ within (lut_point c mm st p) c p.
Proof.
  intros G. destruct st as [[zl zh] rm]. unfold lut_point. pose proof (trans_lut c mm p G) as T. destruct (trans_cam_point _ _ _ _) as [[[q ?] ?] ?].
  destruct T as (Z & A & _). rewrite A, Z. unfold wider, within. destruct (Rlt_dec _ zl), (Rlt_dec zh _), (Rlt_dec rm _); lra.
Qed.
Lemma corner_step c cp tol z0 z1 st ij : c_glass c <> vzero -> let st' := lut_corner c cp tol z0 z1 st ij in
  wider st st' /\ (let '(pos, a) := corner_ray cp tol c ij in within st' c (move_along_ray z0 pos a) /\ within st' c (move_along_ray z1 pos a)).
Proof.
  intros G. unfold lut_corner. cbv zeta. destruct (corner_ray cp tol c ij) as (pos, a).
  destruct (point_step c (mm_ cp) st (move_along_ray z0 pos a) G) as (W1 & I1).
  destruct (point_step c (mm_ cp) (lut_point c (mm_ cp) st (move_along_ray z0 pos a)) (move_along_ray z1 pos a) G) as (W2 & I2).
  split; [eapply wider_trans; eassumption|]. split; [eapply within_wider; eassumption|exact I2].
Qed.
Lemma corners_fold c cp tol z0 z1 l : c_glass c <> vzero -> forall st, let st' := fold_left (lut_corner c cp tol z0 z1) l st in
  wider st st' /\ (forall ij, In ij l -> let '(pos, a) := corner_ray cp tol c ij in within st' c (move_along_ray z0 pos a) /\ within st' c (move_along_ray z1 pos a)).
Proof.
  intros G. induction l as [|k l IH]; intros st; cbn [fold_left]; cbv zeta; [split; [apply wider_refl|intros ? []]|].
  destruct (corner_step c cp tol z0 z1 st k G) as (W & I). destruct (IH (lut_corner c cp tol z0 z1 st k)) as (W' & I').
  split; [eapply wider_trans; eassumption|]. intros ij [<-|J]; [|now apply I']. destruct (corner_ray cp tol c k). destruct I. split; eapply within_wider; eassumption.
Qed.
Definition lut_extent (v : volpar) (cp : cpar) (tol : R) (c : calib) : R * R * R :=
  let z0 := Rmin (zmin0 v) (zmin1 v) - fmod (Rmin (zmin0 v) (zmin1 v)) 2 in
  let z1 := Rmax (zmax0 v) (zmax1 v) + (2 - fmod (Rmax (zmax0 v) (zmax1 v)) 2) in
  fold_left (lut_corner c cp tol z0 z1) four_corners (z0, z1, 0).
Lemma init_shape v cp tol c c' : init_mmlut v cp tol c = Ok c' ->
  c_ext c' = c_ext c /\ c_int c' = c_int c /\ c_glass c' = c_glass c /\ c_added c' = c_added c /\
  let '(zl, zh, rm) := lut_extent v cp tol c in
  l_origin (c_lut c') = V 0 0 zl /\ l_rw (c_lut c') = 2%Z /\ l_nr (c_lut c') = trunc ((rm + (2 - fmod rm 2)) / 2 + 1) /\ l_nz (c_lut c') = trunc ((zh - zl) / 2 + 1) /\
  (l_data (c_lut c) <> [] -> l_data (c_lut c') = l_data (c_lut c)).
Proof.
  unfold init_mmlut. cbv zeta. fold (lut_extent v cp tol c). destruct (lut_extent v cp tol c) as [[zl zh] rm].
  destruct (l_data (c_lut c)) as [|d0 d] eqn:D.
  - destruct (_ || _)%bool; [discriminate|]. unfold bind. destruct (foldM _ _ _) as [data|]; [|discriminate]. intros [= <-]. cbn. repeat split; auto. intros []; reflexivity.
  - intros [= <-]. cbn. repeat split; auto.
Qed.
Lemma extent_wide v cp tol c : c_glass c <> vzero -> let '(zl, zh, rm) := lut_extent v cp tol c in
  zl <= Rmin (zmin0 v) (zmin1 v) - fmod (Rmin (zmin0 v) (zmin1 v)) 2 /\ Rmax (zmax0 v) (zmax1 v) + (2 - fmod (Rmax (zmax0 v) (zmax1 v)) 2) <= zh /\ 0 <= rm.
Proof.
  intros G. unfold lut_extent. cbv zeta. match goal with |- context [fold_left ?f ?l ?s] => destruct (corners_fold c cp tol (Rmin (zmin0 v) (zmin1 v) - fmod (Rmin (zmin0 v) (zmin1 v)) 2)
    (Rmax (zmax0 v) (zmax1 v) + (2 - fmod (Rmax (zmax0 v) (zmax1 v)) 2)) l G s) as (W & _); destruct (fold_left f l s) as [[? ?] ?] end.
  exact W.
Qed.
(** the numbers of nodes *)
Lemma nr_meaning rm : 0 <= rm -> (2 <= trunc ((rm + (2 - fmod rm 2)) / 2 + 1))%Z /\ rm < 2 * (IZR (trunc ((rm + (2 - fmod rm 2)) / 2 + 1)) - 1).
Proof.
  intros H. destruct (up_2 rm) as [L E]. destruct (trunc_floor (rm / 2)) as [[A B] C]; [lra|].
  assert (Q : trunc ((rm + (2 - fmod rm 2)) / 2 + 1) = (trunc (rm / 2) + 2)%Z).
  { rewrite E. replace ((2 * IZR (trunc (rm / 2)) + 2) / 2 + 1) with (IZR (trunc (rm / 2) + 2)) by (rewrite plus_IZR; field). apply trunc_Z. lia. }
  rewrite Q, plus_IZR. split; [lia|]. lra.
Qed.
Lemma nz_meaning zl zh : zl + 2 <= zh -> (2 <= trunc ((zh - zl) / 2 + 1))%Z /\ zl + 2 * (IZR (trunc ((zh - zl) / 2 + 1)) - 1) <= zh < zl + 2 * IZR (trunc ((zh - zl) / 2 + 1)).
Proof.
  intros H. destruct (trunc_floor ((zh - zl) / 2 + 1)) as [[A B] C]; [lra|]. split; [|lra].
  assert (1 < trunc ((zh - zl) / 2 + 1))%Z; [|lia]. apply lt_IZR. lra.
Qed.
Lemma init_nodes v cp tol c c' : c_glass c <> vzero -> Rmin (zmin0 v) (zmin1 v) <= Rmax (zmax0 v) (zmax1 v) -> init_mmlut v cp tol c = Ok c' ->
  let l := c_lut c' in let '(zl, zh, rm) := lut_extent v cp tol c in
  l_origin l = V 0 0 zl /\ l_rw l = 2%Z /\ (2 <= l_nr l)%Z /\ (2 <= l_nz l)%Z /\ rm < 2 * (IZR (l_nr l) - 1) /\
  zl + 2 * (IZR (l_nz l) - 1) <= zh < zl + 2 * IZR (l_nz l).
Proof.
  intros G M E. destruct (init_shape _ _ _ _ _ E) as (_ & _ & _ & _ & S). pose proof (extent_wide v cp tol c G) as W. pose proof (heights_2 _ _ M) as H2.
  cbv zeta. destruct (lut_extent v cp tol c) as [[zl zh] rm]. destruct S as (-> & -> & -> & -> & _). destruct W as (W1 & W2 & W3).
  destruct (nr_meaning rm W3), (nz_meaning zl zh); [lra|]. tauto.
Qed.

(** the entries *)
Lemma rows_ok (f : Z -> Z -> result R) (g : Z -> Z -> R) zs : forall rs acc, (forall i j, In i rs -> In j zs -> f i j = Ok (g i j)) ->
  foldM (fun acc i => foldM (fun acc j => do s <- f i j; Ok (acc ++ [s])) zs acc) rs acc = Ok (acc ++ flat_map (fun i => map (g i) zs) rs).
Proof.
  induction rs as [|i rs IH]; intros acc H; cbn [foldM flat_map]; [now rewrite app_nil_r|].
  rewrite (collect_ok (f i) zs (map (g i) zs)).
  - cbn [bind]. rewrite IH; [now rewrite <- app_assoc|]. intros; apply H; [now right|assumption].
  - clear IH. assert (K : forall j, In j zs -> f i j = Ok (g i j)) by (intros; apply H; [now left|assumption]). clear H.
    induction zs as [|z zs IH]; cbn [map]; constructor; [apply K; now left|apply IH; intros; apply K; now right].
Qed.
Lemma flat_nth {A B} (g : A -> B -> R) zs : forall rs i j a b, nth_error rs i = Some a -> nth_error zs j = Some b ->
  nth_error (flat_map (fun i => map (g i) zs) rs) (i * length zs + j) = Some (g a b).
Proof.
  induction rs as [|r rs IH]; intros [|i] j a b H1 H2; cbn in H1; try discriminate; cbn [flat_map].
  - injection H1 as ->. cbn [Nat.mul Nat.add]. rewrite nth_error_app1 by (rewrite map_length; apply nth_error_Some; congruence). now apply map_nth_error.
  - rewrite nth_error_app2 by (rewrite map_length; lia). rewrite map_length. replace (Datatypes.S i * length zs + j - length zs)%nat with (i * length zs + j)%nat by lia. now apply IH.
Qed.
Lemma flat_len {A B} (g : A -> B -> R) zs rs : length (flat_map (fun i => map (g i) zs) rs) = (length rs * length zs)%nat.
Proof. induction rs; cbn; [reflexivity|]. now rewrite app_length, map_length, IHrs. Qed.
Lemma empty_factor mm cam p l : l_nr l = 0%Z -> l_nz l = 0%Z -> exists f, multimed_r_nlay l mm cam p = Ok f /\ multimed_r_nlay empty_lut mm cam p = Ok f.
Proof.
  intros H1 H2. unfold multimed_r_nlay. rewrite H1, H2. cbn. destruct (one_medium mm); eauto.
Qed.
Lemma init_fresh v cp tol c : c_glass c <> vzero -> Rmin (zmin0 v) (zmin1 v) <= Rmax (zmax0 v) (zmax1 v) -> no_table c ->
  exists c', init_mmlut v cp tol c = Ok c' /\ let l := c_lut c' in
    length (l_data l) = Z.to_nat (l_nr l * l_nz l) /\
    forall i j, (0 <= i < l_nr l)%Z -> (0 <= j < l_nz l)%Z -> exists f, entry l i j = Some f /\ factor c (mm_ cp) (2 * IZR i) (vz (l_origin l) + 2 * IZR j) f.
Proof.
  intros G M (N1 & N2 & N3). pose proof (extent_wide v cp tol c G) as W. pose proof (heights_2 _ _ M) as H2.
  unfold init_mmlut. cbv zeta. fold (lut_extent v cp tol c). rewrite N1, N2, N3. destruct (lut_extent v cp tol c) as [[zl zh] rm]. destruct W as (W1 & W2 & W3).
  destruct (nr_meaning rm W3) as [A1 _], (nz_meaning zl zh) as [A2 _]; [lra|].
  set (nr := trunc (_ / 2 + 1)) in *. set (nz := trunc ((zh - zl) / 2 + 1)) in *. clearbody nr nz.
  replace ((nr <? 0) || (nz <? 0))%Z with false by lia.
  set (lt := mk_lut _ _ _ _ _).
  set (g := fun i j : Z => match multimed_r_nlay lt (mm_ cp) (V 0 0 (lut_z0 c (mm_ cp))) (V (IZR i * 2) 0 (IZR j * 2 + zl)) with Ok f => f | Exn _ => 0 end).
  assert (K : forall i j, multimed_r_nlay lt (mm_ cp) (V 0 0 (lut_z0 c (mm_ cp))) (V (IZR i * 2) 0 (IZR j * 2 + zl)) = Ok (g i j) /\ factor c (mm_ cp) (2 * IZR i) (zl + 2 * IZR j) (g i j)).
  { intros i j. unfold g, factor. rewrite <- (lut_z0_meaning c (mm_ cp) G). replace (2 * IZR i) with (IZR i * 2) by ring. replace (zl + 2 * IZR j) with (IZR j * 2 + zl) by ring.
    destruct (empty_factor (mm_ cp) (V 0 0 (lut_z0 c (mm_ cp))) (V (IZR i * 2) 0 (IZR j * 2 + zl)) lt eq_refl eq_refl) as (f & E1 & E2). rewrite E1. auto. }
  rewrite (rows_ok (fun i j => multimed_r_nlay lt (mm_ cp) (V 0 0 (lut_z0 c (mm_ cp))) (V (IZR i * 2) 0 (IZR j * 2 + zl))) g (zrange 0 nz) (zrange 0 nr) []) by (intros; apply K).
  cbn [bind app]. eexists. split; [reflexivity|]. cbn [c_lut l_data l_nr l_nz l_origin vz].
  assert (L : forall n, (0 <= n)%Z -> length (zrange 0 n) = Z.to_nat n) by (intros; unfold zrange; rewrite map_length, seq_length; f_equal; lia).
  split. { rewrite flat_len, !L by lia. rewrite Z2Nat.inj_mul by lia. reflexivity. }
  intros i j I J. exists (g i j). split; [|apply K]. unfold entry. cbn [l_data l_nz].
  assert (Z : forall n k, (0 <= k < n)%Z -> nth_error (zrange 0 n) (Z.to_nat k) = Some k).
  { intros n k KN. pose proof (zrange_nth (Z.to_nat n) (Z.to_nat k) ltac:(lia)) as Q. rewrite !Z2Nat.id in Q by lia. exact Q. }
  replace (Z.to_nat (i * nz + j)) with (Z.to_nat i * length (zrange 0 nz) + Z.to_nat j)%nat by (rewrite L by lia; rewrite Z2Nat.inj_add, Z2Nat.inj_mul by nia; reflexivity).
  apply flat_nth; now apply Z.
Qed.

(** between two points of a ray *)
Lemma axis_convex c A B t : 0 <= t <= 1 -> axis_distance c (vadd A (vscale (vsub B A) t)) <= (1 - t) * axis_distance c A + t * axis_distance c B.
Proof.
  intros T. unfold axis_distance. set (g := unit_vector (c_glass c)). set (o := e_pos (c_ext c)). cbv zeta.
  set (a := vsub (vsub A o) _). set (b := vsub (vsub B o) _).
  replace (vsub (vsub (vadd A (vscale (vsub B A) t)) o) (vscale g (dot g (vsub (vadd A (vscale (vsub B A) t)) o)))) with (vadd (vscale a (1 - t)) (vscale b t)).
  2: { unfold a, b. generalize g o. clear. intros g o. vec_eq. }
  eapply Rle_trans; [apply triangle|]. rewrite !vnorm_scale, !Rabs_pos_eq by lra. lra.
Qed.
Lemma height_affine c A B t : glass_height c (vadd A (vscale (vsub B A) t)) = (1 - t) * glass_height c A + t * glass_height c B.
Proof. unfold glass_height. generalize (unit_vector (c_glass c)) (vnorm (c_glass c)). intros g n. vcomp. ring. Qed.
Lemma within_between st c A B t : 0 <= t <= 1 -> within st c A -> within st c B -> within st c (vadd A (vscale (vsub B A) t)).
Proof.
  destruct st as [[zl zh] rm]. unfold within. intros T (H1 & H2) (H3 & H4). rewrite height_affine. pose proof (axis_convex c A B t T). split; [nra|]. nra.
Qed.
Lemma ray_between r P z0 z1 : vz (snd r) <> 0 -> on_ray r P -> z0 < z1 -> z0 <= vz P <= z1 ->
  exists t, 0 <= t <= 1 /\ P = vadd (move_along_ray z0 (fst r) (snd r)) (vscale (vsub (move_along_ray z1 (fst r) (snd r)) (move_along_ray z0 (fst r) (snd r))) t).
Proof.
  intros D (k & ->) Z ZP. exists ((vz (vadd (fst r) (vscale (snd r) k)) - z0) / (z1 - z0)).
  split. { split; [apply Rmult_le_pos; [lra|left; apply Rinv_0_lt_compat; lra]|apply Rmult_le_reg_r with (z1 - z0); [lra|]; unfold Rdiv; rewrite Rmult_assoc, Rinv_l by lra; lra]. }
  unfold move_along_ray. destruct (Req_EM_T (vz (snd r)) 0); [contradiction|]. apply vec_ext; unfold vadd, vscale, vsub; cbn [vx vy vz]; field; repeat (match goal with |- _ /\ _ => split end); first [assumption|lra].
Qed.
Lemma corner_within v cp tol c ij P : c_glass c <> vzero -> let r := corner_ray cp tol c ij in vz (snd r) <> 0 -> on_ray r P ->
  Rmin (zmin0 v) (zmin1 v) <= Rmax (zmax0 v) (zmax1 v) ->
  Rmin (zmin0 v) (zmin1 v) - fmod (Rmin (zmin0 v) (zmin1 v)) 2 <= vz P <= Rmax (zmax0 v) (zmax1 v) ->
  within (lut_extent v cp tol c) c P.
Proof.
  intros G r D O M I. pose proof (heights_2 _ _ M) as H2. destruct (up_2 (Rmax (zmax0 v) (zmax1 v))) as [U _].
  unfold lut_extent. cbv zeta. set (z0 := _ - _) in *. set (z1 := _ + (2 - _)) in *. clearbody z0 z1.
  destruct (corners_fold c cp tol z0 z1 four_corners G (z0, z1, 0)) as (_ & H). specialize (H ij).
  assert (In ij four_corners) as J. { destruct ij as [[|] [|]]; cbn; auto. } specialize (H J). cbv zeta in H.
  destruct (ray_between r P z0 z1 D O ltac:(lra) ltac:(lra)) as (t & T & ->). unfold r in *. destruct (corner_ray cp tol c ij) as (pos, a). cbn [fst snd] in *.
  apply within_between; tauto.
Qed.

(** interpolation *)
Lemma norm_axis r : 0 <= r -> vnorm (V r 0 0) = r.
Proof. intros H. unfold vnorm. cbn [vx vy vz]. replace (r * r + 0 * 0 + 0 * 0) with (r * r) by ring. now apply sqrt_square. Qed.
Lemma lookup_between v cp tol c c' r h : c_glass c <> vzero -> Rmin (zmin0 v) (zmin1 v) <= Rmax (zmax0 v) (zmax1 v) -> no_table c -> init_mmlut v cp tol c = Ok c' ->
  let l := c_lut c' in let h0 := vz (l_origin l) in
  0 <= r < 2 * (IZR (l_nr l) - 1) -> h0 <= h < h0 + 2 * (IZR (l_nz l) - 1) ->
  exists i j s t fa fb fc fd, r = 2 * (IZR i + s) /\ h = h0 + 2 * (IZR j + t) /\ 0 <= s < 1 /\ 0 <= t < 1 /\
    factor c (mm_ cp) (2 * IZR i) (h0 + 2 * IZR j) fa /\ factor c (mm_ cp) (2 * IZR i) (h0 + 2 * IZR (j + 1)) fb /\
    factor c (mm_ cp) (2 * IZR (i + 1)) (h0 + 2 * IZR j) fc /\ factor c (mm_ cp) (2 * IZR (i + 1)) (h0 + 2 * IZR (j + 1)) fd /\
    get_mmf_from_mmlut l (V r 0 h) = Ok (fa * (1 - s) * (1 - t) + fb * (1 - s) * t + fc * s * (1 - t) + fd * s * t).
Proof.
  intros G M N E l h0 R H. pose proof (init_nodes v cp tol c c' G M E) as B. cbv zeta in B. fold l in B. 
  assert (B2 : l_rw l = 2%Z /\ l_origin l = V 0 0 h0 /\ (2 <= l_nr l)%Z /\ (2 <= l_nz l)%Z).
  { unfold h0. destruct (lut_extent v cp tol c) as [[zl zh] rm]. destruct B as (O & W & N1 & N2 & _). rewrite O. repeat split; auto. } clear B. destruct B2 as (RW & O & N1 & N2).
  destruct (init_fresh v cp tol c G M N) as (c2 & E2 & L & F). assert (c2 = c') by congruence. subst c2. fold l in L, F. fold h0 in F.
  pose proof (lut_interpolates l (V r 0 h)) as I. cbv zeta in I. rewrite RW, O in I. unfold vsub in I. cbn [vx vy vz] in I.
  rewrite !Rminus_0_r, norm_axis in I by lra. rewrite !minus_IZR in I.
  destruct I as (i & j & s & t & fa & fb & fc & fd & R1 & Z1 & S1 & T1 & I0 & J0 & A1 & A2 & A3 & A4 & Q); [lia|lra|exact L|lra|lra|].
  assert (i + 1 < l_nr l)%Z. { apply lt_IZR. rewrite plus_IZR. lra. }
  assert (j + 1 < l_nz l)%Z. { apply lt_IZR. rewrite plus_IZR. lra. }
  exists i, j, s, t, fa, fb, fc, fd. split; [lra|]. split; [lra|]. split; [exact S1|]. split; [exact T1|].
  assert (K : forall i' j' f, (0 <= i' < l_nr l)%Z -> (0 <= j' < l_nz l)%Z -> entry l i' j' = Some f -> factor c (mm_ cp) (2 * IZR i') (h0 + 2 * IZR j') f).
  { intros i' j' f I' J' EF. destruct (F i' j' I' J') as (f' & E' & F'). congruence. }
  repeat (split; [apply K; [lia|lia|assumption]|]). exact Q.
Qed.

(** the simple camera: exact extent *)
Lemma point_upper c mm st B p : c_glass c <> vzero -> wider st B -> within B c p -> wider (lut_point c mm st p) B.
Proof.
  intros G W I. destruct st as [[zl zh] rm], B as [[bl bh] bm]. unfold lut_point. pose proof (trans_lut c mm p G) as T. destruct (trans_cam_point _ _ _ _) as [[[q ?] ?] ?].
  destruct T as (Z & A & _). rewrite A, Z. unfold wider, within in *. destruct (Rlt_dec _ zl), (Rlt_dec zh _), (Rlt_dec rm _); lra.
Qed.
Lemma corners_upper c cp tol z0 z1 B l : c_glass c <> vzero ->
  (forall ij, In ij l -> let '(pos, a) := corner_ray cp tol c ij in within B c (move_along_ray z0 pos a) /\ within B c (move_along_ray z1 pos a)) ->
  forall st, wider st B -> wider (fold_left (lut_corner c cp tol z0 z1) l st) B.
Proof.
  intros G. induction l as [|k l IH]; intros H st W; cbn [fold_left]; [exact W|]. apply IH; [intros; apply H; now right|].
  specialize (H k (or_introl eq_refl)). unfold lut_corner. destruct (corner_ray cp tol c k). destruct H. apply point_upper; [exact G| |assumption]. now apply point_upper.
Qed.
Lemma simple_corner_at tol ij z : let '(pos, a) := corner_ray simple_cpar tol simple_cal ij in
  glass_height simple_cal (move_along_ray z pos a) = z - 1 /\ (z <= 10 -> axis_distance simple_cal (move_along_ray z pos a) = (10 - z) * sqrt 2) /\
  vz (move_along_ray z pos a) = z /\ vz a <> 0.
Proof.
  unfold corner_ray, pixel_to_metric. cbn [simple_cpar imx_ imy_ pix_x_ pix_y_ mm_].
  change (c_added simple_cal) with no_distortion. rewrite (proj2 (no_distortion_id _ _ tol)).
  set (x := ((if fst ij then 2 else 0) - 2 / 2) * 1 - xh (c_int simple_cal)). set (y := (2 / 2 - (if snd ij then 2 else 0)) * 1 - yh (c_int simple_cal)).
  destruct (simple_ray x y) as (k & K & ->).
  assert (X : x * x = 1) by (unfold x; cbn; destruct (fst ij); field). assert (Y : y * y = 1) by (unfold y; cbn; destruct (snd ij); field). clearbody x y.
  assert (M : move_along_ray z (V (9 * x) (9 * y) 1) (vscale (V x y (-1)) k) = V ((10 - z) * x) ((10 - z) * y) z).
  { unfold move_along_ray. cbn [vscale vx vy vz]. destruct (Req_EM_T (-1 * k) 0); [lra|]. apply vec_ext; cbn [vx vy vz]; try reflexivity; field; lra. }
  rewrite M. unfold glass_height, axis_distance. cbn [simple_cal c_glass c_ext]. rewrite glass_unit, glass_norm. change (e_pos simple_ext) with (V 0 0 10). cbv zeta.
  split; [unfold dot; cbn [vx vy vz]; ring|]. split; [|split; [reflexivity|cbn; lra]]. intros Z.
  unfold vsub, vscale, dot. cbn [vx vy vz]. unfold vnorm. cbn [vx vy vz].
  match goal with |- sqrt ?a = _ => replace a with ((10 - z) * (10 - z) * 2) by (replace a with ((10 - z) * (10 - z) * (x * x + y * y)) by ring; rewrite X, Y; ring) end.
  rewrite sqrt_mult by nra. now rewrite sqrt_square by lra.
Qed.
Lemma simple_glass : c_glass simple_cal <> vzero. Proof. intros [=]. lra. Qed.
Lemma simple_extent tol v z1 : Rmin (zmin0 v) (zmin1 v) - fmod (Rmin (zmin0 v) (zmin1 v)) 2 = 0 -> Rmax (zmax0 v) (zmax1 v) + (2 - fmod (Rmax (zmax0 v) (zmax1 v)) 2) = z1 ->
  0 <= z1 <= 10 -> lut_extent v simple_cpar tol simple_cal = (-1, z1, 10 * sqrt 2).
Proof.
  intros E0 E1 Z. unfold lut_extent. cbv zeta. rewrite E0, E1. pose proof (sqrt_pos 2) as SP. pose proof simple_glass as SG.
  destruct (corners_fold simple_cal simple_cpar tol 0 z1 four_corners SG (0, z1, 0)) as (W & I). cbv zeta in *.
  assert (U : wider (fold_left (lut_corner simple_cal simple_cpar tol 0 z1) four_corners (0, z1, 0)) (-1, z1, 10 * sqrt 2)).
  { apply corners_upper; [exact SG| |unfold wider; lra]. intros ij _.
    pose proof (simple_corner_at tol ij 0) as A. pose proof (simple_corner_at tol ij z1) as B. destruct (corner_ray simple_cpar tol simple_cal ij) as (pos, a).
    destruct A as (A1 & A2 & _). destruct B as (B1 & B2 & _). unfold within. rewrite A1, B1, A2, B2 by lra. split; [lra|]. split; [lra|]. nra. }
  specialize (I (false, false) (or_introl eq_refl)). pose proof (simple_corner_at tol (false, false) 0) as A. destruct (corner_ray simple_cpar tol simple_cal (false, false)) as (pos, a).
  destruct A as (A1 & A2 & _). destruct (fold_left _ _ _) as [[zl zh] rm]. destruct I as (I & _). unfold wider, within in *. rewrite A1, A2 in I by lra.
  f_equal; [f_equal|]; lra.
Qed.
Lemma fmod_0 : fmod 0 2 = 0. Proof. unfold fmod. replace (0 / 2) with 0 by field. rewrite trunc_0 by lra. ring. Qed.
Lemma fmod_m1 : fmod (-1) 2 = -1. Proof. unfold fmod. rewrite trunc_0 by lra. ring. Qed.
Lemma fmod_8 : fmod 8 2 = 0. Proof. unfold fmod. replace (8 / 2) with (IZR 4) by lra. rewrite trunc_Z by lia. ring. Qed.
(** volumes from z0 to z1 *)
Definition slab (z0 z1 : R) : volpar := mk_volpar 0 1 z0 z0 z1 z1.
Lemma slab_min a b : Rmin (zmin0 (slab a b)) (zmin1 (slab a b)) = a. Proof. cbn. apply Rmin_left. lra. Qed.
Lemma slab_max a b : Rmax (zmax0 (slab a b)) (zmax1 (slab a b)) = b. Proof. cbn. apply Rmax_left. lra. Qed.
Lemma root2 : 14 < 10 * sqrt 2 < 16.
Proof.
  split.
  - replace 14 with (10 * sqrt (14 / 10 * (14 / 10))) by (rewrite sqrt_square by lra; field). apply Rmult_lt_compat_l; [lra|]. apply sqrt_lt_1_alt. lra.
  - replace 16 with (10 * sqrt (16 / 10 * (16 / 10))) by (rewrite sqrt_square by lra; field). apply Rmult_lt_compat_l; [lra|]. apply sqrt_lt_1_alt. lra.
Qed.
Lemma simple_nr : trunc ((10 * sqrt 2 + (2 - fmod (10 * sqrt 2) 2)) / 2 + 1) = 9%Z.
Proof.
  pose proof root2 as R2. destruct (up_2 (10 * sqrt 2)) as [_ ->]. destruct (trunc_floor (10 * sqrt 2 / 2)) as [[A B] C]; [lra|].
  assert (trunc (10 * sqrt 2 / 2) = 7)%Z as ->.
  { assert (trunc (10 * sqrt 2 / 2) < 8)%Z by (apply lt_IZR; lra). assert (6 < trunc (10 * sqrt 2 / 2))%Z by (apply lt_IZR; lra). lia. }
  replace ((2 * 7 + 2) / 2 + 1) with (IZR 9) by lra. now apply trunc_Z.
Qed.
Lemma trunc_is x n : (0 <= n)%Z -> IZR n <= x < IZR n + 1 -> trunc x = n.
Proof.
  intros N H. apply IZR_le in N as N'. destruct (trunc_floor x) as [[A B] _]; [lra|]. assert (trunc x < n + 1)%Z by (apply lt_IZR; rewrite plus_IZR; lra).
  assert (n < trunc x + 1)%Z by (apply lt_IZR; rewrite plus_IZR; lra). lia.
Qed.
Lemma with_lut_extent v cp tol c l : lut_extent v cp tol (with_lut c l) = lut_extent v cp tol c.
Proof. reflexivity. Qed.
Lemma init_lut_eq v cp tol c c' : init_mmlut v cp tol c = Ok c' -> c' = with_lut c (c_lut c').
Proof. intros E. destruct (init_shape _ _ _ _ _ E) as (A & B & C & D & _). destruct c'. cbn in *. unfold with_lut. subst. reflexivity. Qed.

(** a second call keeps the entries of the first *)
Lemma stale tol : exists c1 c2, init_mmlut (slab 0 0) simple_cpar tol simple_cal = Ok c1 /\ init_mmlut (slab 0 8) simple_cpar tol c1 = Ok c2 /\
  l_data (c_lut c2) = l_data (c_lut c1) /\ l_nr (c_lut c2) = 9%Z /\ l_nz (c_lut c2) = 6%Z /\ l_nz (c_lut c1) = 2%Z /\ get_mmf_from_mmlut (c_lut c2) (V 6 0 (-1)) = Exn IndexError.
Proof.
  destruct (init_fresh (slab 0 0) simple_cpar tol simple_cal simple_glass) as (c1 & E1 & L1 & _); [rewrite slab_min, slab_max; lra|repeat split|].
  destruct (init_shape _ _ _ _ _ E1) as (_ & _ & _ & _ & S1). rewrite (simple_extent tol (slab 0 0) 2) in S1; [|rewrite slab_min, fmod_0; lra|rewrite slab_max, fmod_0; lra|lra].
  destruct S1 as (O1 & W1 & N1 & Z1 & _). rewrite simple_nr in N1. rewrite (trunc_is _ 2) in Z1 by (try lia; cbn; lra).
  rewrite N1, Z1 in L1. cbn in L1.
  assert (D1 : l_data (c_lut c1) <> []) by (intros Q; rewrite Q in L1; discriminate).
  assert (E2 : exists c2, init_mmlut (slab 0 8) simple_cpar tol c1 = Ok c2).
  { unfold init_mmlut. cbv zeta. destruct (fold_left _ _ _) as [[? ?] ?]. destruct (l_data (c_lut c1)); [contradiction|]. eexists. reflexivity. }
  destruct E2 as (c2 & E2). exists c1, c2. split; [exact E1|]. split; [exact E2|].
  destruct (init_shape _ _ _ _ _ E2) as (_ & _ & _ & _ & S2). rewrite (init_lut_eq _ _ _ _ _ E1) in S2. rewrite with_lut_extent in S2.
  rewrite (simple_extent tol (slab 0 8) 10) in S2; [|rewrite slab_min, fmod_0; lra|rewrite slab_max, fmod_8; lra|lra].
  destruct S2 as (O2 & W2 & N2 & Z2 & K). rewrite simple_nr in N2. rewrite (trunc_is _ 6) in Z2 by (try lia; cbn; lra). cbn [with_lut c_lut] in K. specialize (K D1).
  split; [exact K|]. split; [exact N2|]. split; [exact Z2|]. split; [exact Z1|].
  unfold get_mmf_from_mmlut. rewrite O2, W2, N2, Z2, K. unfold vsub. cbn [vx vy vz]. rewrite !Rminus_0_r, norm_axis by lra.
  replace ((-1 - -1) / 2) with (IZR 0) by lra. replace (6 / 2) with (IZR 3) by lra. rewrite !trunc_Z by lia. cbn.
  unfold pyget, pyidx. rewrite L1. reflexivity.
Qed.
(** negative limits that are not even *)
Lemma bottom tol c' : init_mmlut (slab (-1) 0) simple_cpar tol simple_cal = Ok c' ->
  exists P, in_layers (slab (-1) 0) (vz P) /\ on_ray (corner_ray simple_cpar tol simple_cal (false, false)) P /\ glass_height simple_cal P < vz (l_origin (c_lut c')).
Proof.
  intros E. destruct (init_shape _ _ _ _ _ E) as (_ & _ & _ & _ & S). rewrite (simple_extent tol (slab (-1) 0) 2) in S; [|rewrite slab_min, fmod_m1; lra|rewrite slab_max, fmod_0; lra|lra].
  destruct S as (O & _). rewrite O. cbn [vz]. pose proof (simple_corner_at tol (false, false) (-1)) as A.
  destruct (corner_ray simple_cpar tol simple_cal (false, false)) as (pos, a). destruct A as (A1 & _ & Z & D). exists (move_along_ray (-1) pos a).
  split; [rewrite Z; unfold in_layers; rewrite slab_min, slab_max; lra|]. split; [exact (proj1 (move_on_line (-1) (pos, a) D))|]. rewrite A1. lra.
Qed.

(** the projection never uses the entries *)
Lemma unused_table p c l mm : flat_image_coord p (with_lut c l) mm = flat_image_coord p (with_lut c empty_lut) mm \/ flat_image_coord p (with_lut c l) mm = Exn IndexError.
Proof.
  unfold flat_image_coord. cbn [with_lut c_ext c_glass c_lut empty_lut l_origin l_nr l_nz l_rw]. destruct (trans_cam_point _ _ _ _) as [[[q cp] cr] z0].
  unfold multimed_nlay, multimed_r_nlay. cbn [l_nr l_nz Z.eqb andb negb]. destruct (one_medium mm); cbn [bind]; [left; reflexivity|].
  destruct ((l_nr l =? 0) && (l_nz l =? 0))%Z; cbn [negb bind]; [left; reflexivity|].
  destruct (get_mmf_from_mmlut _ q) as [f|e] eqn:E.
  - left. apply (zero_lut _ (Z.to_nat (l_nr l * l_nz l))) in E; [|reflexivity]. subst f. cbn [bind]. destruct (Rlt_dec 0 0); [lra|reflexivity].
  - right. cbn [bind]. f_equal. revert E. unfold get_mmf_from_mmlut. cbn [l_data l_rw l_nr l_nz l_origin].
    do 3 (match goal with |- context [if ?b then Ok 0 else _] => destruct b; [discriminate|] end).
    unfold bind, pyget. repeat (match goal with |- context [match (if ?x then _ else _) with _ => _ end] => destruct x | |- context [match pyidx ?a ?b with _ => _ end] => destruct (pyidx a b) | |- context [match nth_error ?a ?b with _ => _ end] => destruct (nth_error a b) end; try discriminate; try (intros [= <-]; reflexivity)).
Qed.

(** glass parallel to the z planes: the origin of the table *)
Lemma point_low c mm st p m : c_glass c <> vzero -> m <= fst (fst st) -> m <= glass_height c p -> m <= fst (fst (lut_point c mm st p)).
Proof.
  intros G W I. destruct st as [[zl zh] rm]. unfold lut_point. pose proof (trans_lut c mm p G) as T. destruct (trans_cam_point _ _ _ _) as [[[q ?] ?] ?].
  destruct T as (Z & _). rewrite Z. cbn [fst] in *. destruct (Rlt_dec _ zl); lra.
Qed.
Lemma flat_height c p : unit_vector (c_glass c) = V 0 0 1 -> glass_height c p = vz p - vnorm (c_glass c).
Proof. intros U. unfold glass_height. rewrite U. unfold dot. cbn [vx vy vz]. ring. Qed.
Lemma flat_extent v cp tol c : c_glass c <> vzero -> unit_vector (c_glass c) = V 0 0 1 -> Rmin (zmin0 v) (zmin1 v) <= Rmax (zmax0 v) (zmax1 v) ->
  fst (fst (lut_extent v cp tol c)) = Rmin (zmin0 v) (zmin1 v) - fmod (Rmin (zmin0 v) (zmin1 v)) 2 - vnorm (c_glass c).
Proof.
  intros G U M. pose proof (heights_2 _ _ M) as H2. unfold lut_extent. cbv zeta. set (z0 := _ - _) in *. set (z1 := _ + (2 - _)) in *. clearbody z0 z1.
  pose proof (vnorm_pos (c_glass c)) as NP. apply Rle_antisym.
  - destruct (corners_fold c cp tol z0 z1 four_corners G (z0, z1, 0)) as (_ & I). cbv zeta in I. specialize (I (false, false) (or_introl eq_refl)).
    destruct (corner_ray cp tol c (false, false)) as (pos, a). destruct I as (I & _). destruct (fold_left _ _ _) as [[zl zh] rm]. destruct I as ((I & _) & _).
    rewrite flat_height in I by exact U. exact I.
  - assert (K : forall l st, z0 - vnorm (c_glass c) <= fst (fst st) -> z0 - vnorm (c_glass c) <= fst (fst (fold_left (lut_corner c cp tol z0 z1) l st))).
    { induction l as [|k l IH]; intros st S; cbn [fold_left]; [exact S|]. apply IH. unfold lut_corner. destruct (corner_ray cp tol c k) as (pos, a).
      apply point_low; [exact G| |rewrite flat_height by exact U; cbn [move_along_ray vz]; lra]. apply point_low; [exact G|exact S|rewrite flat_height by exact U; cbn [move_along_ray vz]; lra]. }
    apply K. cbn [fst]. lra.
Qed.
