(** Vectors, rotation, pixel/metric, distortion. *)
From Verif Require Import Base Model_geo Spec_geo.
Local Open Scope R_scope.

Lemma vec_ext a b : vx a = vx b -> vy a = vy b -> vz a = vz b -> a = b.
Proof. destruct a, b; cbn. congruence. Qed.
Ltac vcomp := repeat match goal with v : vec |- _ => destruct v as [?a ?b ?c] end; unfold vsub, vadd, vscale, dot, cross, vneg, vzero in *; cbn [vx vy vz] in *.
Ltac vec_eq := vcomp; apply vec_ext; cbn [vx vy vz]; try ring.
Lemma dot_comm a b : dot a b = dot b a. Proof. vcomp; ring. Qed.
Lemma dot_self_pos a : 0 <= dot a a. Proof. vcomp; nra. Qed.
Lemma vnorm_dot a : vnorm a = sqrt (dot a a). Proof. reflexivity. Qed.
Lemma vnorm_pos a : 0 <= vnorm a. Proof. apply sqrt_pos. Qed.
Lemma vnorm_sq a : vnorm a * vnorm a = dot a a. Proof. apply sqrt_sqrt. apply dot_self_pos. Qed.
Lemma dot_zero a : dot a a = 0 -> a = vzero.
Proof. vcomp. intros H. apply vec_ext; cbn [vx vy vz]; nra. Qed.
Lemma vnorm_zero a : vnorm a = 0 <-> a = vzero.
Proof.
  split; [|intros ->; unfold vnorm; cbn; replace (0*0+0*0+0*0) with 0 by ring; apply sqrt_0].
  intros H. apply dot_zero. rewrite <- vnorm_sq, H. ring.
Qed.
Lemma vnorm_scale a s : vnorm (vscale a s) = Rabs s * vnorm a.
Proof.
  rewrite !vnorm_dot. replace (dot (vscale a s) (vscale a s)) with ((s * s) * dot a a) by (vcomp; ring).
  rewrite sqrt_mult_alt by nra. f_equal. fold (Rsqr s). apply sqrt_Rsqr_abs.
Qed.
Lemma unit_scale a : a <> vzero -> unit_vector a = vscale a (/ vnorm a).
Proof.
  intros H. unfold unit_vector. destruct (Req_EM_T (vnorm a) 0) as [E|E]; [apply vnorm_zero in E; contradiction|]. reflexivity.
Qed.
Lemma unit_zero : unit_vector vzero = vzero.
Proof. unfold unit_vector. destruct (Req_EM_T (vnorm vzero) 0) as [E|E]; [reflexivity|]. exfalso. apply E. now apply vnorm_zero. Qed.
Lemma unit_norm a : a <> vzero -> vnorm (unit_vector a) = 1.
Proof.
  intros H. rewrite unit_scale by auto. rewrite vnorm_scale.
  assert (vnorm a <> 0) by (intros X; apply H; now apply vnorm_zero). pose proof (vnorm_pos a).
  rewrite Rabs_pos_eq; [now apply Rinv_l|]. left. apply Rinv_0_lt_compat. lra.
Qed.
Lemma cauchy_schwarz a b : dot a b <= vnorm a * vnorm b.
Proof.
  destruct (Rle_lt_dec (dot a b) 0) as [L|L]; [pose proof (vnorm_pos a); pose proof (vnorm_pos b); nra|].
  apply Rsqr_incr_0; [|lra|pose proof (vnorm_pos a); pose proof (vnorm_pos b); nra].
  unfold Rsqr. replace (vnorm a * vnorm b * (vnorm a * vnorm b)) with ((vnorm a * vnorm a) * (vnorm b * vnorm b)) by ring.
  rewrite !vnorm_sq. assert (0 <= dot (cross a b) (cross a b)) by apply dot_self_pos.
  replace (dot a a * dot b b) with (dot a b * dot a b + dot (cross a b) (cross a b)) by (vcomp; ring). lra.
Qed.
Lemma triangle a b : vnorm (vadd a b) <= vnorm a + vnorm b.
Proof.
  pose proof (vnorm_pos a). pose proof (vnorm_pos b). apply Rsqr_incr_0; [|apply vnorm_pos|lra]. unfold Rsqr.
  rewrite vnorm_sq. replace ((vnorm a + vnorm b) * (vnorm a + vnorm b)) with (vnorm a * vnorm a + vnorm b * vnorm b + 2 * (vnorm a * vnorm b)) by ring.
  rewrite !vnorm_sq. pose proof (cauchy_schwarz a b). replace (dot (vadd a b) (vadd a b)) with (dot a a + dot b b + 2 * dot a b) by (vcomp; ring). lra.
Qed.
Lemma diff_norm_metric a b c : vec_diff_norm a b = vnorm (vsub a b) /\ vec_diff_norm a b = vec_diff_norm b a /\
  (vec_diff_norm a b = 0 <-> a = b) /\ vec_diff_norm a c <= vec_diff_norm a b + vec_diff_norm b c.
Proof.
  assert (E : forall a b, vec_diff_norm a b = vnorm (vsub a b)).
  { clear. intros. unfold vec_diff_norm, vnorm. f_equal. ring. }
  split; [apply E|]. rewrite !E. split; [|split].
  - rewrite !vnorm_dot. f_equal. vcomp. ring.
  - rewrite vnorm_zero. split; [|intros ->; vec_eq]. intros H. apply vec_ext; apply (f_equal vx) in H as Hx; apply (f_equal vy) in H as Hy; apply (f_equal vz) in H as Hz; vcomp; lra.
  - replace (vsub a c) with (vadd (vsub a b) (vsub b c)) by vec_eq. apply triangle.
Qed.
Lemma cross_laws a b : dot (cross a b) a = 0 /\ dot (cross a b) b = 0 /\ cross b a = vneg (cross a b) /\
  vnorm (cross a b) * vnorm (cross a b) + dot a b * dot a b = vnorm a * vnorm a * (vnorm b * vnorm b).
Proof. rewrite !vnorm_sq. repeat split; vcomp; try ring. apply vec_ext; cbn; ring. Qed.

(** ---- rotation ---- *)
Lemma sc2 x : sin x * sin x = 1 - cos x * cos x.
Proof. pose proof (sin2_cos2 x). unfold Rsqr in *. lra. Qed.
Ltac trig om ph ka :=
  pose proof (sc2 om) as Ho; pose proof (sc2 ph) as Hp; pose proof (sc2 ka) as Hk;
  revert Ho Hp Hk; generalize (sin om) (cos om) (sin ph) (cos ph) (sin ka) (cos ka); intros so co sp cp sk ck Ho Hp Hk.
Lemma rot_orthonormal om ph ka : orthonormal (rotation_of om ph ka) /\ mdet (rotation_of om ph ka) = 1.
Proof.
  unfold orthonormal, mdet, rotation_of, dot, cross. cbn [row1 row2 row3 vx vy vz]. trig om ph ka.
  repeat split.
  - ring [Ho Hp Hk].
  - ring_simplify. replace (so ^ 2) with (so * so) by ring. replace (sk ^ 2) with (sk * sk) by ring. replace (sp ^ 2) with (sp * sp) by ring.
    rewrite Ho, Hp, Hk. ring.
  - ring_simplify. replace (so ^ 2) with (so * so) by ring. replace (sk ^ 2) with (sk * sk) by ring. replace (sp ^ 2) with (sp * sp) by ring.
    rewrite Ho, Hp, Hk. ring.
  - ring_simplify. replace (sk ^ 2) with (sk * sk) by ring. rewrite Hk. ring.
  - ring_simplify. replace (sk ^ 2) with (sk * sk) by ring. rewrite Hk. ring.
  - ring_simplify. replace (so ^ 2) with (so * so) by ring. replace (sk ^ 2) with (sk * sk) by ring. replace (sp ^ 2) with (sp * sp) by ring. rewrite Hp, Hk. ring.
  - ring_simplify. replace (so ^ 2) with (so * so) by ring. replace (sk ^ 2) with (sk * sk) by ring. replace (sp ^ 2) with (sp * sp) by ring. rewrite Ho, Hp, Hk. ring.
Qed.
Lemma rot_zero : rotation_of 0 0 0 = M (V 1 0 0) (V 0 1 0) (V 0 0 1).
Proof. unfold rotation_of. rewrite cos_0, sin_0. f_equal; apply vec_ext; cbn; ring. Qed.

Lemma rot_product om ph ka : rotation_of om ph ka = mmul (mmul (rot_x om) (rot_y ph)) (rot_z ka).
Proof. unfold rotation_of, mmul, rot_x, rot_y, rot_z, col1, col2, col3, dot. cbn [row1 row2 row3 vx vy vz]. f_equal; apply vec_ext; cbn [vx vy vz]; ring. Qed.
Lemma rot_preserves om ph ka a b : dot (mapply (rotation_of om ph ka) a) (mapply (rotation_of om ph ka) b) = dot a b.
Proof.
  unfold mapply, rotation_of, dot. cbn [row1 row2 row3 vx vy vz]. trig om ph ka. destruct a as [a1 a2 a3], b as [b1 b2 b3]. cbn [vx vy vz].
  ring [Ho Hp Hk].
Qed.
Lemma set_angles_ok e om ph ka : let e' := set_angles e om ph ka in
  omega e' = om /\ phi e' = ph /\ kappa e' = ka /\ e_pos e' = e_pos e /\ dm e' = mmul (mmul (rot_x om) (rot_y ph)) (rot_z ka) /\
  orthonormal (dm e') /\ mdet (dm e') = 1 /\ (forall a b, dot (mapply (dm e') a) (mapply (dm e') b) = dot a b).
Proof.
  cbn. rewrite <- rot_product. do 4 (split; [reflexivity|]). split; [reflexivity|]. destruct (rot_orthonormal om ph ka). split; [assumption|]. split; [assumption|]. apply rot_preserves.
Qed.
(** the operations are those of coordinate space *)
Lemma space_laws a b c s t :
  vadd a b = vadd b a /\ vadd a (vadd b c) = vadd (vadd a b) c /\ vadd a vzero = a /\ vadd (vsub a b) b = a /\
  vscale a 1 = a /\ vscale (vscale a s) t = vscale a (s * t) /\ vscale (vadd a b) s = vadd (vscale a s) (vscale b s) /\ vscale a (s + t) = vadd (vscale a s) (vscale a t) /\
  dot a b = dot b a /\ dot (vadd a b) c = dot a c + dot b c /\ dot (vscale a s) b = s * dot a b /\
  a = vadd (vscale (V 1 0 0) (vx a)) (vadd (vscale (V 0 1 0) (vy a)) (vscale (V 0 0 1) (vz a))) /\
  dot (V 1 0 0) (V 1 0 0) = 1 /\ dot (V 0 1 0) (V 0 1 0) = 1 /\ dot (V 0 0 1) (V 0 0 1) = 1 /\
  dot (V 1 0 0) (V 0 1 0) = 0 /\ dot (V 0 1 0) (V 0 0 1) = 0 /\ dot (V 1 0 0) (V 0 0 1) = 0 /\
  cross (V 1 0 0) (V 0 1 0) = V 0 0 1.
Proof. repeat (split; [vcomp; try (apply vec_ext; cbn [vx vy vz]); ring|]). vec_eq. Qed.
Lemma norm_laws a b s : vnorm a * vnorm a = dot a a /\ 0 <= vnorm a /\ (vnorm a = 0 <-> a = vzero) /\ vnorm (vscale a s) = Rabs s * vnorm a /\ vnorm (vadd a b) <= vnorm a + vnorm b.
Proof. split; [apply vnorm_sq|]. split; [apply vnorm_pos|]. split; [apply vnorm_zero|]. split; [apply vnorm_scale|apply triangle]. Qed.
Lemma unit_laws a : unit_vector vzero = vzero /\ (a <> vzero -> vnorm (unit_vector a) = 1 /\ a = vscale (unit_vector a) (vnorm a)).
Proof.
  split; [apply unit_zero|]. intros H. split; [now apply unit_norm|]. rewrite unit_scale by assumption.
  assert (vnorm a <> 0) by (intros X; apply H; now apply vnorm_zero). apply vec_ext; cbn [vx vy vz vscale]; field; assumption.
Qed.
