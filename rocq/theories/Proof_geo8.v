(** searchquader, look-up table, volume dimensions *)
From Verif Require Import Base Model_geo Spec_geo Proof_geo Proof_geo2 Proof_geo3 Proof_geo4 Proof_geo5 Proof_geo6 Proof_geo7.
Local Open Scope R_scope.

Lemma corners_extremes p l c : In c (map (corner p l) (zrange 0 8)) <-> In c (extremes p l).
Proof.
  change (zrange 0 8) with [0; 1; 2; 3; 4; 5; 6; 7]%Z. unfold extremes. cbn [map flat_map app In]. unfold corner, vadd.
  replace (Z.testbit 0 0) with false by reflexivity. cbn [Z.testbit Pos.testbit Z.odd Pos.pred_N Pos.pred_double vx vy vz]. tauto.
Qed.
Lemma fold_min l : forall h, let m := fold_left Rmin l h in m <= h /\ (forall y, In y l -> m <= y) /\ (m = h \/ In m l).
Proof.
  induction l as [|a l IH]; intros h; cbv zeta; cbn [fold_left]; [split; [lra|]; split; [contradiction|now left]|].
  destruct (IH (Rmin h a)) as (A & B & C). pose proof (Rmin_l h a). pose proof (Rmin_r h a).
  split; [lra|]. split; [intros y [<-|Y]; [lra|auto]|]. destruct C as [C|C]; [|right; now right].
  rewrite C. unfold Rmin. destruct (Rle_dec h a); [now left|right; now left].
Qed.
Lemma fold_max l : forall h, let m := fold_left Rmax l h in h <= m /\ (forall y, In y l -> y <= m) /\ (m = h \/ In m l).
Proof.
  induction l as [|a l IH]; intros h; cbv zeta; cbn [fold_left]; [split; [lra|]; split; [contradiction|now left]|].
  destruct (IH (Rmax h a)) as (A & B & C). pose proof (Rmax_l h a). pose proof (Rmax_r h a).
  split; [lra|]. split; [intros y [<-|Y]; [lra|auto]|]. destruct C as [C|C]; [|right; now right].
  rewrite C. unfold Rmax. destruct (Rle_dec h a); [right; now left|now left].
Qed.
Lemma clamp_min l hi : 0 <= hi -> l <> [] -> is_min (let m := fold_left Rmin l hi in if Rlt_dec m 0 then 0 else m) (map (clamp hi) l).
Proof.
  intros H NE. cbv zeta. destruct (fold_min l hi) as (A & B & C). set (m := fold_left Rmin l hi) in *.
  assert (E : (if Rlt_dec m 0 then 0 else m) = Rmax 0 m) by (unfold Rmax; destruct (Rlt_dec m 0), (Rle_dec 0 m); lra). rewrite E. split.
  - destruct C as [C|C].
    + destruct l as [|a l]; [contradiction|]. apply in_map_iff. exists a. split; [|now left]. unfold clamp. rewrite Rmin_left; [now rewrite C|]. rewrite <- C. apply B. now left.
    + apply in_map_iff. exists m. split; [|assumption]. unfold clamp. now rewrite Rmin_right.
  - intros y Y. apply in_map_iff in Y as (x & <- & X). unfold clamp. apply Rmax_lub; [apply Rmax_l|]. apply Rle_trans with (Rmin hi x); [|apply Rmax_r].
    apply Rmin_glb; [assumption|now apply B].
Qed.
Lemma clamp_max l hi : 0 <= hi -> l <> [] -> is_max (let m := fold_left Rmax l 0 in if Rlt_dec hi m then hi else m) (map (clamp hi) l).
Proof.
  intros H NE. cbv zeta. destruct (fold_max l 0) as (A & B & C). set (m := fold_left Rmax l 0) in *.
  assert (E : (if Rlt_dec hi m then hi else m) = Rmin hi m) by (unfold Rmin; destruct (Rlt_dec hi m), (Rle_dec hi m); lra). rewrite E. split.
  - destruct C as [C|C].
    + destruct l as [|a l]; [contradiction|]. apply in_map_iff. exists a. split; [|now left]. assert (a <= 0) by (rewrite <- C; apply B; now left).
      unfold clamp. rewrite C. rewrite (Rmin_right hi a) by lra. rewrite (Rmin_right hi 0) by lra. apply Rmax_left. lra.
    + apply in_map_iff. exists m. split; [|assumption]. unfold clamp. apply Rmax_right. apply Rmin_glb; assumption.
  - intros y Y. apply in_map_iff in Y as (x & <- & X). unfold clamp. apply Rmax_lub.
    + apply Rmin_glb; assumption.
    + apply Rmin_glb; [apply Rmin_l|]. apply Rle_trans with x; [apply Rmin_r|now apply B].
Qed.
Lemma widen_fold pts : forall a b c d, fold_left widen pts (a, b, c, d) =
  (fold_left Rmin (map fst pts) a, fold_left Rmin (map snd pts) b, fold_left Rmax (map fst pts) c, fold_left Rmax (map snd pts) d).
Proof.
  assert (MN : forall x y, (if Rlt_dec x y then x else y) = Rmin y x) by (intros; unfold Rmin; destruct (Rlt_dec x y), (Rle_dec y x); lra).
  assert (MX : forall x y, (if Rlt_dec y x then x else y) = Rmax y x) by (intros; unfold Rmax; destruct (Rlt_dec y x), (Rle_dec y x); lra).
  induction pts as [|p pts IH]; intros; [reflexivity|]. cbn [fold_left map]. unfold widen at 2. rewrite !MN, !MX. apply IH.
Qed.
Lemma is_min_ext x l l' : (forall y, In y l <-> In y l') -> is_min x l -> is_min x l'.
Proof. intros E [A B]. split; [now apply E|]. intros y Y. apply B. now apply E. Qed.
Lemma is_max_ext x l l' : (forall y, In y l <-> In y l') -> is_max x l -> is_max x l'.
Proof. intros E [A B]. split; [now apply E|]. intros y Y. apply B. now apply E. Qed.
Lemma quader_spec to_pixel imx imy p l : 0 <= imx -> 0 <= imy ->
  let '(xr, xl, yd, yu) := searchquader to_pixel imx imy p l in
  let cx := fst (to_pixel p) in let cy := snd (to_pixel p) in
  let xs := map (fun c => clamp imx (fst (to_pixel c))) (extremes p l) in
  let ys := map (fun c => clamp imy (snd (to_pixel c))) (extremes p l) in
  is_min (cx - xl) xs /\ is_max (cx + xr) xs /\ is_min (cy - yu) ys /\ is_max (cy + yd) ys.
Proof.
  intros HX HY. unfold searchquader. rewrite widen_fold. cbv zeta.
  set (pts := map (fun pt => to_pixel (corner p l pt)) (zrange 0 8)).
  assert (NE : pts <> []) by (unfold pts; discriminate).
  assert (IN : forall (f : R * R -> R) hi y, In y (map (clamp hi) (map f pts)) <-> In y (map (fun c => clamp hi (f (to_pixel c))) (extremes p l))).
  { intros f hi y. unfold pts. rewrite <- (map_map (corner p l) to_pixel). rewrite !map_map.
    rewrite <- (map_map (corner p l) (fun c => clamp hi (f (to_pixel c)))). rewrite !in_map_iff. split; intros (c & E & I); exists c; (split; [exact E|]); now apply corners_extremes. }
  assert (NF : map fst pts <> []) by (destruct pts; [contradiction|discriminate]). assert (NS : map snd pts <> []) by (destruct pts; [contradiction|discriminate]).
  split; [|split; [|split]].
  - replace (fst (to_pixel p) - (fst (to_pixel p) - _)) with (let m := fold_left Rmin (map fst pts) imx in if Rlt_dec m 0 then 0 else m) by (cbv zeta; ring).
    eapply is_min_ext; [apply IN|]. now apply clamp_min.
  - replace (fst (to_pixel p) + (_ - fst (to_pixel p))) with (let m := fold_left Rmax (map fst pts) 0 in if Rlt_dec imx m then imx else m) by (cbv zeta; ring).
    eapply is_max_ext; [apply IN|]. now apply clamp_max.
  - replace (snd (to_pixel p) - (snd (to_pixel p) - _)) with (let m := fold_left Rmin (map snd pts) imy in if Rlt_dec m 0 then 0 else m) by (cbv zeta; ring).
    eapply is_min_ext; [apply IN|]. now apply clamp_min.
  - replace (snd (to_pixel p) + (_ - snd (to_pixel p))) with (let m := fold_left Rmax (map snd pts) 0 in if Rlt_dec imy m then imy else m) by (cbv zeta; ring).
    eapply is_max_ext; [apply IN|]. now apply clamp_max.
Qed.

(** ---- look-up table ---- *)
Lemma trunc_floor x : 0 <= x -> IZR (trunc x) <= x < IZR (trunc x) + 1 /\ (0 <= trunc x)%Z.
Proof.
  intros H. unfold trunc. destruct (Rlt_dec x 0); [lra|]. destruct (base_Int_part x) as [A B]. split; [lra|].
  assert (IZR (-1) < IZR (Int_part x)) by (simpl; lra). apply lt_IZR in H0. lia.
Qed.
Lemma lut_interpolates l pos : let t := vsub pos (l_origin l) in
  let r := vnorm (V (vx t) (vy t) 0) in
  (0 < l_rw l)%Z -> 0 <= vz t -> length (l_data l) = Z.to_nat (l_nr l * l_nz l) ->
  vz t / IZR (l_rw l) < IZR (l_nz l - 1) -> r / IZR (l_rw l) < IZR (l_nr l - 1) ->
  exists i j sr sz a b c d,
    r / IZR (l_rw l) = IZR i + sr /\ vz t / IZR (l_rw l) = IZR j + sz /\ 0 <= sr < 1 /\ 0 <= sz < 1 /\ (0 <= i)%Z /\ (0 <= j)%Z /\
    entry l i j = Some a /\ entry l i (j + 1) = Some b /\ entry l (i + 1) j = Some c /\ entry l (i + 1) (j + 1) = Some d /\
    get_mmf_from_mmlut l pos = Ok (a * (1 - sr) * (1 - sz) + b * (1 - sr) * sz + c * sr * (1 - sz) + d * sr * sz).
Proof.
  intros t r RW ZT LEN HZ HR. assert (RWR : 0 < IZR (l_rw l)) by (now apply (IZR_lt 0)).
  assert (IP : 0 < / IZR (l_rw l)) by (now apply Rinv_0_lt_compat).
  assert (Z0 : 0 <= vz t / IZR (l_rw l)) by (apply Rmult_le_pos; lra).
  assert (R0 : 0 <= r / IZR (l_rw l)) by (apply Rmult_le_pos; [apply vnorm_pos|lra]).
  destruct (trunc_floor _ Z0) as [[T1 T2] T3]. destruct (trunc_floor _ R0) as [[U1 U2] U3].
  set (j := trunc (vz t / IZR (l_rw l))) in *. set (i := trunc (r / IZR (l_rw l))) in *.
  assert (J : (j < l_nz l - 1)%Z) by (apply lt_IZR; lra). assert (I : (i < l_nr l - 1)%Z) by (apply lt_IZR; lra).
  assert (BND : forall i' j', (0 <= i' < l_nr l)%Z -> (0 <= j' < l_nz l)%Z -> (0 <= i' * l_nz l + j' < l_nr l * l_nz l)%Z) by (intros; nia).
  assert (GET : forall i' j', (0 <= i' < l_nr l)%Z -> (0 <= j' < l_nz l)%Z -> exists x, entry l i' j' = Some x /\ pyget (l_data l) (i' * l_nz l + j') = Ok x).
  { intros i' j' Hi Hj. pose proof (BND i' j' Hi Hj). destruct (pyget_in_range (l_data l) (i' * l_nz l + j')) as (x & X1 & X2); [rewrite LEN; lia|]. exists x. split; assumption. }
  destruct (GET i j ltac:(lia) ltac:(lia)) as (a & A1 & A2). destruct (GET i (j + 1)%Z ltac:(lia) ltac:(lia)) as (b & B1 & B2).
  destruct (GET (i + 1)%Z j ltac:(lia) ltac:(lia)) as (c & C1 & C2). destruct (GET (i + 1)%Z (j + 1)%Z ltac:(lia) ltac:(lia)) as (d & D1 & D2).
  exists i, j, (r / IZR (l_rw l) - IZR i), (vz t / IZR (l_rw l) - IZR j), a, b, c, d.
  split; [ring|]. split; [ring|]. split; [lra|]. split; [lra|]. do 6 (split; [assumption|]).
  unfold get_mmf_from_mmlut. fold t r. cbv zeta. fold i j.
  replace (i >? l_nr l)%Z with false by (symmetry; rewrite Z.gtb_ltb; apply Z.ltb_ge; lia).
  replace ((j <? 0) || (j >? l_nz l))%Z with false.
  2:{ symmetry. apply orb_false_iff. split; [apply Z.ltb_ge; lia|rewrite Z.gtb_ltb; apply Z.ltb_ge; lia]. }
  replace (existsb _ _) with false.
  2:{ symmetry. cbn [existsb]. pose proof (BND i j ltac:(lia) ltac:(lia)). pose proof (BND i (j + 1)%Z ltac:(lia) ltac:(lia)). pose proof (BND (i + 1)%Z j ltac:(lia) ltac:(lia)). pose proof (BND (i + 1)%Z (j + 1)%Z ltac:(lia) ltac:(lia)).
      rewrite !orb_false_iff. rewrite !Z.gtb_ltb. repeat split; apply Z.ltb_ge; lia. }
  rewrite A2, B2, C2, D2. reflexivity.
Qed.
Lemma convex4 a b c d sr sz lo hi : 0 <= sr < 1 -> 0 <= sz < 1 -> lo <= a <= hi -> lo <= b <= hi -> lo <= c <= hi -> lo <= d <= hi ->
  lo <= a * (1 - sr) * (1 - sz) + b * (1 - sr) * sz + c * sr * (1 - sz) + d * sr * sz <= hi.
Proof.
  intros. assert (0 <= (1 - sr) * (1 - sz)) by nra. assert (0 <= (1 - sr) * sz) by nra. assert (0 <= sr * (1 - sz)) by nra. assert (0 <= sr * sz) by nra.
  split.
  - replace lo with (lo * ((1 - sr) * (1 - sz)) + lo * ((1 - sr) * sz) + lo * (sr * (1 - sz)) + lo * (sr * sz)) by ring. nra.
  - replace hi with (hi * ((1 - sr) * (1 - sz)) + hi * ((1 - sr) * sz) + hi * (sr * (1 - sz)) + hi * (sr * sz)) by ring. nra.
Qed.
(** outside: 0 far away, but not at the border *)
Lemma trunc_0 x : -1 < x < 1 -> trunc x = 0%Z.
Proof.
  intros H. unfold trunc. destruct (Rlt_dec x 0).
  - destruct (base_Int_part (- x)) as [A B]. assert (Int_part (- x) = 0)%Z; [|lia].
    assert (IZR (-1) < IZR (Int_part (- x))) by (simpl; lra). assert (IZR (Int_part (- x)) < IZR 1) by (simpl; lra). apply lt_IZR in H0, H1. lia.
  - destruct (base_Int_part x) as [A B]. assert (IZR (-1) < IZR (Int_part x)) by (simpl; lra). assert (IZR (Int_part x) < IZR 1) by (simpl; lra). apply lt_IZR in H0, H1. lia.
Qed.
Lemma trunc_Z z : (0 <= z)%Z -> trunc (IZR z) = z.
Proof.
  intros H. destruct (trunc_floor (IZR z)) as [[A B] C]; [now apply (IZR_le 0)|]. rewrite <- plus_IZR in B. apply le_IZR in A. apply lt_IZR in B. lia.
Qed.
Definition small_lut (a b c d : R) : lut := mk_lut vzero 2 2 1 [a; b; c; d].
Lemma r_zero z : vnorm (V (vx (vsub (V 0 0 z) vzero)) (vy (vsub (V 0 0 z) vzero)) 0) = 0.
Proof. unfold vnorm. cbn. replace ((0 - 0) * (0 - 0) + (0 - 0) * (0 - 0) + 0 * 0) with 0 by ring. apply sqrt_0. Qed.
Lemma lut_off_by_one a b c d : get_mmf_from_mmlut (small_lut a b c d) (V 0 0 1) = Exn IndexError.
Proof.
  unfold get_mmf_from_mmlut. cbn [l_origin l_rw l_nr l_nz l_data small_lut]. cbv zeta. rewrite r_zero.
  replace (vz (vsub (V 0 0 1) vzero) / 1) with (IZR 1) by (cbn; field). replace (0 / 1) with (IZR 0) by field. rewrite !trunc_Z by lia. reflexivity.
Qed.
Lemma lut_below a b c d : get_mmf_from_mmlut (small_lut a b c d) (V 0 0 (- / 2)) = Ok (3 / 2 * a - / 2 * b).
Proof.
  unfold get_mmf_from_mmlut. cbn [l_origin l_rw l_nr l_nz l_data small_lut]. cbv zeta. rewrite r_zero.
  replace (vz (vsub (V 0 0 (- / 2)) vzero) / 1) with (- / 2) by (cbn; field). replace (0 / 1) with 0 by field. rewrite !trunc_0 by lra. cbn. change (Pos.to_nat 1) with 1%nat. change (Pos.to_nat 2) with 2%nat. change (Pos.to_nat 3) with 3%nat. cbn. f_equal. field.
Qed.
Definition wrap_lut (a b c d e f : R) : lut := mk_lut vzero 3 2 1 [a; b; c; d; e; f].
(** z = 3/2 is above the last layer of a table with two layers: the code mixes in the next radius *)
Lemma lut_wrap a b c d e f : get_mmf_from_mmlut (wrap_lut a b c d e f) (V 0 0 (3 / 2)) = Ok (/ 2 * b + / 2 * c).
Proof.
  unfold get_mmf_from_mmlut. cbn [l_origin l_rw l_nr l_nz l_data wrap_lut]. cbv zeta. rewrite r_zero.
  replace (vz (vsub (V 0 0 (3 / 2)) vzero) / 1) with (3 / 2) by (cbn; field). replace (0 / 1) with 0 by field. rewrite trunc_0 by lra.
  assert (T : trunc (3 / 2) = 1%Z). { destruct (trunc_floor (3 / 2)) as [[A B] C]; [lra|]. assert (IZR (trunc (3 / 2)) < IZR 2) by lra. assert (IZR 0 < IZR (trunc (3 / 2))) by lra. apply lt_IZR in H, H0. lia. }
  rewrite T. cbn. change (Pos.to_nat 1) with 1%nat. change (Pos.to_nat 2) with 2%nat. change (Pos.to_nat 3) with 3%nat. change (Pos.to_nat 4) with 4%nat. cbn. f_equal. field.
Qed.

(** ---- volumedimension ---- *)
Definition in_box (b : R * R * R * R) (x y : R) : Prop := let '(xmax, xmin, ymax, ymin) := b in xmin <= x <= xmax /\ ymin <= y <= ymax.
Lemma grow_in b x y : let '(xmax, xmin, ymax, ymin) := b in xmin <= xmax -> ymin <= ymax -> in_box (grow b (x, y)) x y.
Proof. destruct b as [[[xM xm] yM] ym]. intros. unfold grow, in_box. repeat match goal with |- context [Rlt_dec ?a ?b] => destruct (Rlt_dec a b) end; lra. Qed.
Lemma grow_mono b q x y : in_box b x y -> in_box (grow b q) x y.
Proof. destruct b as [[[xM xm] yM] ym], q as [X Y]. unfold grow, in_box. intros. repeat match goal with |- context [Rlt_dec ?a ?b] => destruct (Rlt_dec a b) end; lra. Qed.
Definition ordered (b : R * R * R * R) : Prop := let '(xmax, xmin, ymax, ymin) := b in xmin <= xmax /\ ymin <= ymax.
Lemma grow_ordered b q : ordered b -> ordered (grow b q).
Proof. destruct b as [[[xM xm] yM] ym], q as [X Y]. unfold grow, ordered. intros. repeat match goal with |- context [Rlt_dec ?a ?b] => destruct (Rlt_dec a b) end; lra. Qed.
Lemma grow_ray_ordered z1 z2 b r : ordered b -> ordered (grow_ray z1 z2 b r).
Proof. intros H. destruct r as [p a]. unfold grow_ray. now apply grow_ordered, grow_ordered. Qed.
Lemma grow_ray_mono z1 z2 b r x y : in_box b x y -> in_box (grow_ray z1 z2 b r) x y.
Proof. intros H. destruct r as [p a]. unfold grow_ray. now apply grow_mono, grow_mono. Qed.
Lemma fold_ray_mono z1 z2 l : forall b x y, in_box b x y -> in_box (fold_left (grow_ray z1 z2) l b) x y.
Proof. induction l; intros; cbn [fold_left]; [assumption|]. apply IHl. now apply grow_ray_mono. Qed.
Lemma fold_ray_in z1 z2 l : forall b r, ordered b -> In r l ->
  let f := fold_left (grow_ray z1 z2) l b in
  in_box f (fst (at_z r z2)) (snd (at_z r z2)) /\ in_box f (vx (fst r) + (z1 + vz (fst r)) * vx (snd r) / vz (snd r)) (vy (fst r) + (z1 + vz (fst r)) * vy (snd r) / vz (snd r)).
Proof.
  induction l as [|a l IH]; intros b r O I; [contradiction|]. cbv zeta. cbn [fold_left]. destruct I as [->|I]; [|apply IH; [now apply grow_ray_ordered|assumption]].
  destruct r as [p a]. cbn [fst snd at_z]. split; apply fold_ray_mono; unfold grow_ray.
  - match goal with |- in_box (grow ?b ?q) _ _ => pose proof (grow_in b (fst q) (snd q)) as G; assert (OO : ordered b) by (now apply grow_ordered) end.
    destruct (grow b _) as [[[? ?] ?] ?]. destruct OO. now apply G.
  - apply grow_mono. pose proof (grow_in b (vx p + (z1 + vz p) * vx a / vz a) (vy p + (z1 + vz p) * vy a / vz a)) as G.
    destruct b as [[[? ?] ?] ?]. destruct O. now apply G.
Qed.

Lemma simple_dm : dm (c_ext simple_cal) = identity3. Proof. unfold simple_cal, simple_ext, set_angles, rotation_matrix. cbn [c_ext dm omega phi kappa]. apply rot_zero. Qed.
Lemma id_keeps : keeps_length identity3. Proof. intros a. unfold identity3. rewrite <- rot_zero. apply rot_keeps. Qed.
Lemma glass_norm : vnorm (V 0 0 1) = 1. Proof. unfold vnorm. cbn [vx vy vz]. replace (0 * 0 + 0 * 0 + 1 * 1) with 1 by ring. apply sqrt_1. Qed.
Lemma glass_unit : unit_vector (V 0 0 1) = V 0 0 1.
Proof. unfold unit_vector. rewrite glass_norm. destruct (Req_EM_T 1 0); [lra|]. apply vec_ext; cbn; field. Qed.
Lemma mapply_id v : mapply identity3 v = v. Proof. destruct v. unfold mapply, identity3, dot. cbn. apply vec_ext; cbn; ring. Qed.
Lemma cross_le_1 g s : is_unit g -> is_unit s -> vnorm (cross g s) <= 1.
Proof.
  intros G S. rewrite vnorm_dot, cross_dot, G, S. apply Rle_trans with (sqrt 1); [|rewrite sqrt_1; lra]. apply sqrt_le_1_alt. pose proof (pow2_ge_0 (dot s g)). lra.
Qed.
Lemma simple_ray x y : exists k, 0 < k /\ ray_tracing x y simple_cal simple_mm = (V (9 * x) (9 * y) 1, vscale (V x y (-1)) k).
Proof.
  unfold ray_tracing. rewrite simple_dm. cbn [simple_cal c_int c_ext c_glass cc simple_mm d_0 n2_0 m_n1 m_n2 m_n3 m_d nth simple_ext]. change (d_0 simple_mm) with 1. change (n2_0 simple_mm) with 1.
  change (e_pos (set_angles _ 0 0 0)) with (V 0 0 10). set (cam := V x y (- (1))).
  assert (CN : cam <> vzero) by (intros [=]; lra). pose proof (norm_pos_ne cam CN) as NP. set (k := / vnorm cam). assert (K : 0 < k) by (now apply Rinv_0_lt_compat).
  assert (IN : incoming cam identity3 = vscale cam k) by (unfold incoming; now rewrite mapply_id, unit_scale).
  assert (GU : is_unit (unit_vector (V 0 0 1))) by (rewrite glass_unit; unfold is_unit, dot; cbn; ring).
  assert (GN : V 0 0 1 <> vzero) by (intros [=]; lra).
  assert (SU : is_unit (incoming cam identity3)) by (apply Hs; [assumption|apply id_keeps]).
  assert (CL : 1 * vnorm (cross (unit_vector (V 0 0 1)) (incoming cam identity3)) <= 1) by (rewrite Rmult_1_l; now apply cross_le_1).
  assert (DG : dot (incoming cam identity3) (unit_vector (V 0 0 1)) = - k) by (rewrite IN, glass_unit; unfold dot, cam; cbn; ring).
  exists k. split; [assumption|].
  pose proof (trace_same cam identity3 (V 0 0 10) (V 0 0 1) 1 1 1 1 CN id_keeps GN ltac:(lra) ltac:(lra) eq_refl eq_refl ltac:(lra)) as TS.
  pose proof (trace_same_vertex cam identity3 (V 0 0 10) (V 0 0 1) 1 1 1 1 CN id_keeps GN ltac:(lra) eq_refl eq_refl ltac:(lra)) as TV.
  assert (CS : 1 * vnorm (cross (unit_vector (V 0 0 1)) (incoming cam identity3)) < 1).
  { rewrite Rmult_1_l. rewrite vnorm_dot, cross_dot, GU, SU, DG. apply Rlt_le_trans with (sqrt 1); [|rewrite sqrt_1; lra]. apply sqrt_lt_1_alt. split; [|nra].
    pose proof (n_range _ _ GU SU) as NR. rewrite DG in NR. lra. }
  destruct (trace_vertex cam identity3 (V 0 0 10) (V 0 0 1) 1 1 1 1 CN id_keeps GN ltac:(lra) ltac:(lra)) as (Xb & _ & _ & _ & VZ); [rewrite dot_comm; lra|exact CS|].
  destruct (fast_ray_tracing _ _ _ _ _ _ _ _) as [X out]. cbn [fst snd] in *. subst out. destruct TV as (t & ->). rewrite IN in *. clear - VZ K.
  rewrite glass_unit, glass_norm in VZ. unfold dot, cam in VZ. cbn [vx vy vz vadd vscale] in VZ.
  assert (KT : k * t = 9) by lra. unfold cam. f_equal; apply vec_ext; cbn [vx vy vz vadd vscale]; try ring.
  - replace (0 + x * k * t) with (x * (k * t)) by ring. rewrite KT. ring.
  - replace (0 + y * k * t) with (y * (k * t)) by ring. rewrite KT. ring.
  - replace (10 + - (1) * k * t) with (10 - k * t) by ring. rewrite KT. ring.
Qed.
Lemma simple_corner tol (ij : bool * bool) : exists x y k, Rabs x <= 1 /\ Rabs y <= 1 /\ x = (if fst ij then 1 else -1) /\ 0 < k /\
  corner_ray simple_cpar tol simple_cal ij = (V (9 * x) (9 * y) 1, vscale (V x y (-1)) k).
Proof.
  unfold corner_ray, pixel_to_metric. cbn [simple_cpar imx_ imy_ pix_x_ pix_y_ mm_].
  change (c_added simple_cal) with no_distortion. rewrite (proj2 (no_distortion_id _ _ tol)).
  set (x := ((if fst ij then 2 else 0) - 2 / 2) * 1 - xh (c_int simple_cal)). set (y := (2 / 2 - (if snd ij then 2 else 0)) * 1 - yh (c_int simple_cal)).
  destruct (simple_ray x y) as (k & K & E). exists x, y, k. rewrite E.
  assert (X : x = (if fst ij then 1 else -1)) by (unfold x; cbn; destruct (fst ij); field). assert (Y : y = (if snd ij then -1 else 1)) by (unfold y; cbn; destruct (snd ij); field).
  split; [rewrite X; destruct (fst ij); unfold Rabs; destruct (Rcase_abs _); lra|]. split; [rewrite Y; destruct (snd ij); unfold Rabs; destruct (Rcase_abs _); lra|]. auto.
Qed.
Definition xmax_of (b : R * R * R * R) : R := fst (fst (fst b)).
Lemma grow_bound b X Y m : xmax_of b <= m -> X <= m -> xmax_of (grow b (X, Y)) <= m.
Proof. destruct b as [[[xM xm] yM] ym]. unfold xmax_of, grow. cbn [fst]. destruct (Rlt_dec xM X); lra. Qed.
Lemma fold_bound z1 z2 l m : Forall (fun r => vx (fst r) + (z1 + vz (fst r)) * vx (snd r) / vz (snd r) <= m /\ vx (fst r) + (z2 - vz (fst r)) * vx (snd r) / vz (snd r) <= m) l ->
  forall b, xmax_of b <= m -> xmax_of (fold_left (grow_ray z1 z2) l b) <= m.
Proof.
  induction 1 as [|[p a] l [H1 H2] F IH]; intros b B; cbn [fold_left]; [assumption|]. apply IH. unfold grow_ray. cbn [fst snd] in *. apply grow_bound; [|assumption]. now apply grow_bound.
Qed.
Lemma volume_too_small tol : 
  let '(xmax, xmin, ymax, ymin, z_max, z_min) := volumedimension 0 0 0 0 deep_vol simple_cpar tol [simple_cal] in
  z_min = -5 /\ xmax <= 13 /\ fst (at_z (corner_ray simple_cpar tol simple_cal (true, true)) z_min) = 15.
Proof.
  unfold volumedimension. cbn [deep_vol zmin0 zmin1 zmax0 zmax1]. destruct (Rlt_dec (-5) (-5)); [lra|]. destruct (Rlt_dec 0 0); [lra|].
  cbn [flat_map]. rewrite app_nil_r.
  assert (B : xmax_of (fold_left (grow_ray (-5) 0) (map (corner_ray simple_cpar tol simple_cal) four_corners) (0, 0, 0, 0)) <= 13).
  { apply fold_bound; [|cbn; lra]. apply Forall_map. apply Forall_forall. intros ij _. destruct (simple_corner tol ij) as (x & y & k & X & Y & _ & K & ->).
    cbn [fst snd vx vy vz vscale]. apply rabs_inv in X. 
    replace (9 * x + (-5 + 1) * (x * k) / (-1 * k)) with (13 * x) by (field; lra). replace (9 * x + (0 - 1) * (x * k) / (-1 * k)) with (10 * x) by (field; lra). lra. }
  destruct (fold_left _ _ _) as [[[xM xm] yM] ym]. split; [reflexivity|]. split; [exact B|].
  destruct (simple_corner tol (true, true)) as (x & y & k & X & Y & E & K & ->). unfold at_z. cbn [fst snd vx vy vz vscale] in *. rewrite E. field. lra.
Qed.
Lemma volume_contains xmax xmin ymax ymin v cp tol cals c ij : xmin <= xmax -> ymin <= ymax -> In c cals ->
  let '(xM, xm, yM, ym, z_max, z_min) := volumedimension xmax xmin ymax ymin v cp tol cals in
  z_max = Rmax (zmax0 v) (zmax1 v) /\ z_min = Rmin (zmin0 v) (zmin1 v) /\
  (let p := at_z (corner_ray cp tol c ij) z_max in xm <= fst p <= xM /\ ym <= snd p <= yM) /\
  (vz (fst (corner_ray cp tol c ij)) = 0 -> let p := at_z (corner_ray cp tol c ij) z_min in xm <= fst p <= xM /\ ym <= snd p <= yM) /\
  xm <= xmin /\ xmax <= xM /\ ym <= ymin /\ ymax <= yM.
Proof.
  intros HX HY IC. unfold volumedimension.
  set (z1 := if Rlt_dec (zmin1 v) (zmin0 v) then zmin1 v else zmin0 v). set (z2 := if Rlt_dec (zmax0 v) (zmax1 v) then zmax1 v else zmax0 v).
  set (rays := flat_map _ cals). assert (IR : In (corner_ray cp tol c ij) rays).
  { apply in_flat_map. exists c. split; [assumption|]. apply in_map. destruct ij as [[|] [|]]; cbn; auto. }
  assert (O : ordered (xmax, xmin, ymax, ymin)) by (split; assumption).
  pose proof (fold_ray_in z1 z2 rays _ _ O IR) as [A B].
  pose proof (fold_ray_mono z1 z2 rays (xmax, xmin, ymax, ymin) xmax ymax ltac:(cbn; lra)) as M1. pose proof (fold_ray_mono z1 z2 rays (xmax, xmin, ymax, ymin) xmin ymin ltac:(cbn; lra)) as M2.
  destruct (fold_left _ _ _) as [[[xM xm] yM] ym]. 
  split; [unfold z2, Rmax; destruct (Rlt_dec (zmax0 v) (zmax1 v)), (Rle_dec (zmax0 v) (zmax1 v)); lra|].
  split; [unfold z1, Rmin; destruct (Rlt_dec (zmin1 v) (zmin0 v)), (Rle_dec (zmin0 v) (zmin1 v)); lra|].
  split; [exact A|]. split.
  - intros Z. rewrite Z in B. unfold at_z. rewrite Z. cbn [fst snd]. rewrite Rplus_0_r in B. rewrite Rminus_0_r. exact B.
  - cbn in M1, M2. lra.
Qed.
