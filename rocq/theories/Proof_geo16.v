(** Proofs for C76: the layers of a medium. *)
From Verif Require Import Base Model_geo Spec_geo Spec_geo2 Model_geo2 Spec_geo3 Proof_geo Proof_geo5 Proof_geo8.
Local Open Scope R_scope.

Lemma layers_set mm n2 d : let '(m, r) := set_layers mm n2 d in
  (r = Ok tt /\ length n2 = length d /\ m_n2 m = n2 /\ m_d m = d \/ r = Exn ValueError /\ length n2 <> length d /\ m = mm) /\
  m_n1 m = m_n1 mm /\ m_n3 m = m_n3 mm /\ m_nlay m = m_nlay mm.
Proof. unfold set_layers. destruct (Nat.eqb_spec (length n2) (length d)); cbn; repeat split; auto. Qed.
Lemma history_lengths : forall xs mm, length (m_n2 mm) = length (m_d mm) -> let m := fold_left mm_step xs mm in length (m_n2 m) = length (m_d m) /\ m_nlay m = m_nlay mm.
Proof.
  induction xs as [|x xs IH]; intros mm H; [auto|]. cbn [fold_left].
  assert (length (m_n2 (mm_step mm x)) = length (m_d (mm_step mm x)) /\ m_nlay (mm_step mm x) = m_nlay mm) as [A B].
  { destruct x; cbn; auto. unfold set_layers. destruct (Nat.eqb_spec (length n2) (length d)); cbn; auto. }
  destruct (IH _ A) as [P Q]. split; [exact P|]. rewrite <- B. exact Q.
Qed.

Definition same_outside (a b : mmpar) : Prop := m_n1 a = m_n1 b /\ m_n3 a = m_n3 b /\ nth 0 (m_n2 a) 0 = nth 0 (m_n2 b) 0.
Lemma rdiff_same a b z0 zd zo r rq : same_outside a b -> m_d a = m_d b -> nlay_rdiff a z0 zd zo r rq = nlay_rdiff b z0 zd zo r rq.
Proof. intros (A & B & C) D. unfold nlay_rdiff, n2_0, d_0. rewrite A, B, C, D. reflexivity. Qed.
Lemma loop_same a b z0 zd zo r : same_outside a b -> m_d a = m_d b -> forall n q rq, nlay_loop n a z0 zd zo r q rq = nlay_loop n b z0 zd zo r q rq.
Proof.
  intros S D. induction n as [|n IH]; intros q rq; [reflexivity|]. cbn [nlay_loop]. destruct (Rlt_dec _ _); [|reflexivity].
  rewrite (rdiff_same a b) by assumption. apply IH.
Qed.
Lemma one_same a b : same_outside a b -> m_nlay a = m_nlay b -> one_medium a = one_medium b.
Proof. intros (A & B & C) N. unfold one_medium, n2_0. rewrite A, B, C, N. reflexivity. Qed.
Lemma r_nlay_same a b l cam pos : same_outside a b -> m_d a = m_d b -> m_nlay a = m_nlay b -> multimed_r_nlay l a cam pos = multimed_r_nlay l b cam pos.
Proof.
  intros S D N. unfold multimed_r_nlay. rewrite (one_same a b) by assumption. destruct (one_medium b); [reflexivity|].
  assert (fast_multimed_r_nlay a cam pos = fast_multimed_r_nlay b cam pos) as ->; [|reflexivity].
  unfold fast_multimed_r_nlay. rewrite D, N. rewrite (loop_same a b) by assumption. reflexivity.
Qed.
Lemma flat_same a b p c : same_outside a b -> m_d a = m_d b -> m_nlay a = m_nlay b -> flat_image_coord p c a = flat_image_coord p c b.
Proof.
  intros S D N. unfold flat_image_coord. assert (d_0 a = d_0 b) as -> by (unfold d_0; rewrite D; reflexivity).
  destruct (trans_cam_point _ _ _ _) as [[[pt cp] cr] z0]. unfold multimed_nlay. rewrite (r_nlay_same a b) by assumption. reflexivity.
Qed.
Lemma ray_same a b x y c : same_outside a b -> nth 0 (m_d a) 0 = nth 0 (m_d b) 0 -> ray_tracing x y c a = ray_tracing x y c b.
Proof. intros (A & B & C) D. unfold ray_tracing, n2_0, d_0. rewrite A, B, C, D. reflexivity. Qed.

(** the number of layers is stale: one fixed medium, two layers, count 1 *)
Section Stale.
Variables (n d0 d1 z0 h r : R).
Hypotheses (N0 : n <> 0) (D1 : 0 < d1 < z0 - h) (R0 : 0 < r).
Let mm := mk_mm 1 n [n; n] [d0; d1] n.
Let t := d1 / (z0 - h).
Lemma t_range : 0 < t < 1.
Proof. unfold t. assert (0 < / (z0 - h)) by (apply Rinv_0_lt_compat; lra). split; [unfold Rdiv; nra|]. apply Rmult_lt_reg_r with (z0 - h); [lra|]. unfold Rdiv. rewrite Rmult_assoc, Rinv_l by lra. lra. Qed.
Lemma stale_rdiff rq : nlay_rdiff mm z0 (z0 - h) (h + rsum (layers_from1 1 [d0; d1])) r rq = r - (1 + t) * rq.
Proof.
  unfold nlay_rdiff, mm, n2_0, d_0. cbn [m_n1 m_n2 m_n3 m_d nth map]. set (b := atan (rq / (z0 - h))).
  replace (sin b * n / n) with (sin b) by (field; assumption).
  assert (B : - (PI / 2) < b < PI / 2) by (pose proof (atan_bound (rq / (z0 - h))) as A; fold b in A; lra).
  rewrite asin_sin by lra. replace (tan b) with (rq / (z0 - h)) by (unfold b; symmetry; apply tan_atan).
  unfold t, layers_from1. cbn [Z.ltb Z.compare]. change (Z.to_nat 1) with 1%nat. cbn [firstn skipn rsum fold_right]. field. lra.
Qed.
Lemma stale_loop : forall k q rq, r * (1 - t) <= rq <= r * (1 - t + t * t) ->
  r * (1 - t) <= nlay_loop k mm z0 (z0 - h) (h + rsum (layers_from1 1 [d0; d1])) r q rq <= r * (1 - t + t * t).
Proof.
  pose proof t_range as T. induction k as [|k IH]; intros q rq H; cbn [nlay_loop]; [exact H|]. destruct (Rlt_dec _ _); [|exact H].
  apply IH. rewrite stale_rdiff. replace (rq + (r - (1 + t) * rq)) with (r - t * rq) by ring.
  assert (t * (r * (1 - t)) <= t * rq <= t * (r * (1 - t + t * t))) as [P Q] by (split; apply Rmult_le_compat_l; lra).
  assert (0 <= r * (t * t) * (1 - t)) by (apply Rmult_le_pos; [apply Rmult_le_pos; [lra|nra]|lra]).
  split; nra.
Qed.
Lemma stale_run k : r * (1 - t) <= nlay_loop (S k) mm z0 (z0 - h) (h + rsum (layers_from1 1 [d0; d1])) r (/ 10) r <= r * (1 - t + t * t).
Proof.
  pose proof t_range as T. cbn [nlay_loop]. destruct (Rlt_dec (/ 1000) (Rabs (/ 10))) as [_|Q]; [|exfalso; apply Q; rewrite Rabs_pos_eq by lra; lra].
  rewrite stale_rdiff. replace (r + (r - (1 + t) * r)) with (r * (1 - t)) by ring.
  apply stale_loop. split; [lra|apply Rmult_le_compat_l; nra].
Qed.
Lemma stale_factor : exists f, multimed_r_nlay empty_lut (fst (set_layers (mk_mm 1 n [n] [d0] n) [n; n] [d0; d1])) (V 0 0 z0) (V r 0 h) = Ok f /\ (n <> 1 -> 1 - t <= f <= 1 - t + t * t) /\ (n = 1 -> f = 1).
Proof.
  unfold set_layers. cbn [length Nat.eqb fst m_nlay m_n1 m_n3]. fold mm. unfold multimed_r_nlay. destruct (one_medium mm) eqn:OM.
  - exists 1. split; [reflexivity|]. split; [|auto]. intros N1. exfalso. unfold one_medium, mm, n2_0 in OM. cbn [m_n1] in OM. destruct (Req_EM_T n 1); [contradiction|discriminate].
  - cbn [empty_lut l_nr l_nz Z.eqb andb negb bind]. destruct (Rlt_dec 0 0); [lra|]. eexists. split; [reflexivity|]. split.
    2:{ intros ->. exfalso. unfold one_medium, mm, n2_0 in OM. cbn [m_n1 m_n2 m_n3 m_nlay nth] in OM. destruct (Req_EM_T 1 1); [discriminate|contradiction]. }
    intros N1. unfold fast_multimed_r_nlay. cbn [vx vy vz].
    replace ((r - 0) * (r - 0) + (0 - 0) * (0 - 0)) with (r * r) by ring. rewrite sqrt_square by lra.
    destruct (Req_EM_T (z0 - h) 0); [lra|]. destruct (Req_EM_T r 0); [lra|]. change (m_nlay mm) with 1%Z. change (m_d mm) with [d0; d1].
    pose proof (stale_run 39) as [A B]. set (x := nlay_loop 40 mm z0 _ _ r _ _) in *. clearbody x.
    split; apply Rmult_le_reg_r with r; try lra; unfold Rdiv; rewrite ?(Rmult_assoc x), ?Rinv_l by lra; lra.
Qed.
End Stale.

(** the projection of the simple camera through such a medium *)
Lemma norm_z : vnorm (V 0 0 1) = 1.
Proof. exact glass_norm. Qed.
Lemma stale_projection n d0 d1 x y z : n <> 0 -> n <> 1 -> 0 < d1 < 10 - z -> (x <> 0 \/ y <> 0) ->
  let t := d1 / (10 - z) in
  exists f, 1 - t <= f <= 1 - t + t * t /\
    flat_image_coord (V x y z) simple_cal (fst (set_layers (mk_mm 1 n [n] [d0] n) [n; n] [d0; d1])) = Ok (f * x / (10 - z), f * y / (10 - z)).
Proof.
  intros N0 N1 D XY t. set (mm := fst (set_layers _ _ _)).
  assert (D0 : d_0 mm = d0) by reflexivity.
  set (r := vnorm (V x y 0)). assert (R0 : 0 < r).
  { unfold r, vnorm, dot. cbn. apply sqrt_lt_R0. destruct XY as [X|Y]; [assert (0 < x * x) by nra|assert (0 < y * y) by nra]; nra. }
  destruct (stale_factor n d0 d1 9 (z - 1) r N0 ltac:(lra) R0) as (f & E & F & _). specialize (F N1). fold mm in E.
  replace (9 - (z - 1)) with (10 - z) in F by ring. fold t in F. exists f. split; [exact F|].
  unfold flat_image_coord. rewrite D0. change (e_pos (c_ext simple_cal)) with (V 0 0 10). change (c_glass simple_cal) with (V 0 0 1). change (c_lut simple_cal) with empty_lut.
  unfold trans_cam_point. cbn [empty_lut l_origin l_nr l_nz l_rw].
  rewrite norm_z. destruct (Req_EM_T 1 0); [lra|].
  assert (E1 : dot (V 0 0 10) (V 0 0 1) = 10) by (unfold dot; cbn; ring). assert (E2 : dot (V x y z) (V 0 0 1) = z) by (unfold dot; cbn; ring).
  rewrite E1, E2.
  assert (T : vsub (vsub (V x y z) (vscale (V 0 0 1) ((z / 1 - 1) / 1))) (vsub (vsub (V 0 0 10) (vscale (V 0 0 1) ((10 / 1 - 1 - d0) / 1))) (vscale (V 0 0 1) (d0 / 1))) = V x y 0).
  { apply vec_ext; cbn; field. }
  rewrite T. fold r. replace (10 / 1 - 1 - d0 + d0) with 9 by field. replace (z / 1 - 1) with (z - 1) by field.
  change (repeat 0 (Z.to_nat (0 * 0))) with (@nil R).
  unfold multimed_nlay. change (mk_lut vzero 0 0 0 []) with empty_lut. rewrite E. cbn [bind fst snd vx vy vz].
  unfold back_trans_point. rewrite norm_z. cbn [vx vy vz].
  replace (z / 1 - 1) with (z - 1) in T by field. rewrite !T. fold r. destruct (Rlt_dec 0 r) as [_|]; [|contradiction].
  match goal with |- Ok (project _ ?a) = _ => assert (a = V (f * x) (f * y) z) as -> end.
  { apply vec_ext; cbn; field; lra. }
  f_equal. unfold project. change (c_ext simple_cal) with (c_ext simple_cal). rewrite simple_dm. change (e_pos (c_ext simple_cal)) with (V 0 0 10). change (cc (c_int simple_cal)) with 1.
  unfold dot, col1, col2, col3, vsub, identity3. cbn [vx vy vz].
  match goal with |- context [Req_EM_T ?a 0] => destruct (Req_EM_T a 0) as [Q|Q]; [exfalso; cbn in Q; lra|] end.
  f_equal; cbn in *; field; lra.
Qed.
