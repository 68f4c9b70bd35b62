(** Ray tracing: Snell's law *)
From Verif Require Import Base Model_geo Spec_geo Proof_geo.
Local Open Scope R_scope.

Lemma unit_vector_unit a : a <> vzero -> is_unit (unit_vector a).
Proof. intros H. unfold is_unit. rewrite <- vnorm_sq, unit_norm by assumption. ring. Qed.
Lemma w_dot0 g s : is_unit g -> is_unit s -> dot (vsub s (vscale g (dot s g))) (vsub s (vscale g (dot s g))) = 1 - dot s g ^ 2.
Proof. unfold is_unit. intros G S. transitivity (dot s s - 2 * dot s g ^ 2 + dot s g ^ 2 * dot g g); [vcomp; ring|]. rewrite G, S. ring. Qed.
Lemma w_g0 g s : is_unit g -> dot (vsub s (vscale g (dot s g))) g = 0.
Proof. unfold is_unit. intros G. transitivity (dot s g - dot s g * dot g g); [vcomp; ring|]. rewrite G. ring. Qed.
Lemma g_w0 g s n : cross g (vsub s (vscale g n)) = cross g s.
Proof. vec_eq. Qed.
Lemma comb_dot w g a q : dot (vadd (vscale w a) (vscale g (- q))) (vadd (vscale w a) (vscale g (- q))) = dot w w * a ^ 2 + q * q * dot g g - 2 * q * a * dot w g.
Proof. vcomp; ring. Qed.
Lemma comb_g w g a q : dot (vadd (vscale w a) (vscale g (- q))) g = dot w g * a - q * dot g g.
Proof. vcomp; ring. Qed.
Lemma comb_cross w g a b q : vscale (cross g w) (b * a) = vscale (cross g (vadd (vscale w a) (vscale g q))) b.
Proof. vec_eq. Qed.
Lemma comb_plane s g n a q : vadd (vscale (vsub s (vscale g n)) a) (vscale g q) = vadd (vscale g (q - n * a)) (vscale s a).
Proof. vec_eq. Qed.
Lemma comb_id s g n : vadd (vscale (vsub s (vscale g n)) 1) (vscale g (- - n)) = s.
Proof. vec_eq. Qed.
Lemma comb_mirror s g n : vadd (vscale (vsub s (vscale g n)) 1) (vscale g (- n)) = vsub s (vscale g (2 * n)).
Proof. vec_eq. Qed.
Lemma vscale_0 p : vscale vzero p = vzero. Proof. vec_eq. Qed.
Lemma cross_dot g s : dot (cross g s) (cross g s) = dot g g * dot s s - dot s g ^ 2. Proof. vcomp; ring. Qed.
Section Refract.
Variables (g s : vec) (na nb : R).
Hypothesis (Hg : is_unit g) (Hs : is_unit s) (Hnb : 0 < nb) (Hna : 0 <= na).
Let n := dot s g.
Let w := vsub s (vscale g n).
Let p := sqrt (1 - n ^ 2) * na / nb.
Hypothesis (TIR : p <= 1).
Lemma w_dot : dot w w = 1 - n ^ 2.
Proof. now apply w_dot0. Qed.
Lemma w_g : dot w g = 0.
Proof. now apply w_g0. Qed.
Lemma g_w : cross g w = cross g s.
Proof. apply g_w0. Qed.
Lemma n_range : 0 <= 1 - n ^ 2. Proof. rewrite <- w_dot. apply dot_self_pos. Qed.
Lemma w_norm : vnorm w = sqrt (1 - n ^ 2). Proof. rewrite vnorm_dot, w_dot. reflexivity. Qed.
Lemma p_nonneg : 0 <= p.
Proof. unfold p. apply Rmult_le_pos; [apply Rmult_le_pos; [apply sqrt_pos|assumption]|]. left. now apply Rinv_0_lt_compat. Qed.
(** the parallel part of the refracted ray *)
Lemma par : vscale (unit_vector w) p = vscale w (na / nb).
Proof.
  destruct (veq_dec w vzero) as [E|E].
  - rewrite E, unit_zero. now rewrite !vscale_0.
  - rewrite unit_scale by assumption. assert (N : vnorm w <> 0) by (intros X; apply E; now apply vnorm_zero).
    unfold p. rewrite <- w_norm. apply vec_ext; cbn [vx vy vz vscale]; field; split; lra.
Qed.
Lemma refract_eq : refract g s na nb = vadd (vscale w (na / nb)) (vscale g (- sqrt (1 - p ^ 2))).
Proof. unfold refract. fold n. fold w. fold p. now rewrite par. Qed.
Lemma p_sq : p ^ 2 = (1 - n ^ 2) * (na / nb) ^ 2.
Proof. unfold p. pose proof (sqrt_sqrt _ n_range). replace ((sqrt (1 - n ^ 2) * na / nb) ^ 2) with (sqrt (1 - n ^ 2) * sqrt (1 - n ^ 2) * (na / nb) ^ 2) by (field; lra). now rewrite H. Qed.
Lemma p_range : 0 <= 1 - p ^ 2. Proof. pose proof p_nonneg. nra. Qed.
Lemma refract_unit : is_unit (refract g s na nb).
Proof. unfold is_unit. rewrite refract_eq, comb_dot. rewrite (sqrt_sqrt _ p_range), w_dot, w_g, Hg, p_sq. ring. Qed.
Lemma refract_dot : dot (refract g s na nb) g = - sqrt (1 - p ^ 2).
Proof. rewrite refract_eq, comb_g, w_g, Hg. ring. Qed.
Lemma refract_snell : snell g s (refract g s na nb) na nb.
Proof. unfold snell. rewrite refract_eq, <- g_w. rewrite <- comb_cross. f_equal. field. lra. Qed.
Lemma refract_plane : in_plane g s (refract g s na nb).
Proof. exists (- sqrt (1 - p ^ 2) - n * (na / nb)), (na / nb). rewrite refract_eq. apply comb_plane. Qed.
End Refract.

Lemma refract_same g s na : is_unit g -> is_unit s -> 0 < na -> dot s g <= 0 -> refract g s na na = s.
Proof.
  intros Hg Hs Ha N. rewrite refract_eq by (assumption || lra).
  pose proof (n_range g s Hg Hs) as NR. pose proof (sqrt_sqrt _ NR) as SS.
  replace ((sqrt (1 - dot s g ^ 2) * na / na)) with (sqrt (1 - dot s g ^ 2)) by (field; lra).
  replace (1 - sqrt (1 - dot s g ^ 2) ^ 2) with (Rsqr (dot s g)) by (unfold Rsqr; replace (sqrt (1 - dot s g ^ 2) ^ 2) with (sqrt (1 - dot s g ^ 2) * sqrt (1 - dot s g ^ 2)) by ring; rewrite SS; ring).
  rewrite sqrt_Rsqr_abs, Rabs_left1 by assumption. replace (na / na) with 1 by (field; lra). apply comb_id.
Qed.
Lemma refract_mirror g s na : is_unit g -> is_unit s -> 0 < na -> 0 <= dot s g -> refract g s na na = vsub s (vscale g (2 * dot s g)).
Proof.
  intros Hg Hs Ha N. rewrite refract_eq by (assumption || lra).
  pose proof (n_range g s Hg Hs) as NR. pose proof (sqrt_sqrt _ NR) as SS.
  replace ((sqrt (1 - dot s g ^ 2) * na / na)) with (sqrt (1 - dot s g ^ 2)) by (field; lra).
  replace (1 - sqrt (1 - dot s g ^ 2) ^ 2) with (Rsqr (dot s g)) by (unfold Rsqr; replace (sqrt (1 - dot s g ^ 2) ^ 2) with (sqrt (1 - dot s g ^ 2) * sqrt (1 - dot s g ^ 2)) by ring; rewrite SS; ring).
  rewrite sqrt_Rsqr_abs, Rabs_pos_eq by assumption. replace (na / na) with 1 by (field; lra). apply comb_mirror.
Qed.

Lemma no_tir g s na nb : is_unit g -> is_unit s -> 0 < nb -> 0 <= na -> na <= nb \/ na * vnorm (cross g s) <= nb ->
  sqrt (1 - dot s g ^ 2) * na / nb <= 1.
Proof.
  intros Hg Hs Hb Ha H. assert (E : vnorm (cross g s) = sqrt (1 - dot s g ^ 2)).
  { rewrite vnorm_dot, cross_dot, Hg, Hs. f_equal. ring. }
  pose proof (n_range g s Hg Hs) as NR. pose proof (sqrt_pos (1 - dot s g ^ 2)).
  apply Rmult_le_reg_r with nb; [assumption|]. replace (sqrt (1 - dot s g ^ 2) * na / nb * nb) with (sqrt (1 - dot s g ^ 2) * na) by (field; lra).
  destruct H as [H|H]; [|rewrite E in H; lra].
  assert (sqrt (1 - dot s g ^ 2) <= 1). { rewrite <- sqrt_1 at 2. apply sqrt_le_1_alt. pose proof (pow2_ge_0 (dot s g)). lra. }
  nra.
Qed.
Lemma plane_comb s g a b a' b' : vadd (vscale g a') (vscale (vadd (vscale g a) (vscale s b)) b') = vadd (vscale g (a' + a * b')) (vscale s (b * b')).
Proof. vec_eq. Qed.
Lemma dot_lin g a b k : dot g (vadd a (vscale b k)) = dot g a + k * dot g b. Proof. vcomp; ring. Qed.
Lemma line_comb p s a b : vadd (vadd p (vscale s a)) (vscale s b) = vadd p (vscale s (a + b)). Proof. vec_eq. Qed.
Lemma mirror_g s g : dot (vsub s (vscale g (2 * dot s g))) g = dot s g - 2 * dot s g * dot g g. Proof. vcomp; ring. Qed.
Lemma mirror_n s g k : dot (vsub s (vscale g (2 * k))) (vsub s (vscale g (2 * k))) = dot s s - 4 * k * dot s g + 4 * k ^ 2 * dot g g. Proof. vcomp; ring. Qed.
Section Trace.
Variables (camera : vec) (m : mat) (pp glass : vec) (d n1 n2 n3 : R).
Let s := incoming camera m.
Let g := unit_vector glass.
Hypothesis (Hc : camera <> vzero) (Hm : keeps_length m) (HG : glass <> vzero) (H1 : 0 < n1) (H2 : 0 < n2) (H3 : 0 < n3)
  (T2 : n1 * vnorm (cross g s) <= n2) (T3 : n1 * vnorm (cross g s) <= n3).
Lemma Hs : is_unit s.
Proof. unfold s, incoming, is_unit. rewrite Hm. now apply unit_vector_unit. Qed.
Lemma Hg : is_unit g. Proof. now apply unit_vector_unit. Qed.
Let t := refract g s n1 n2.
Lemma tir2 : sqrt (1 - dot s g ^ 2) * n1 / n2 <= 1.
Proof. apply no_tir; first [apply Hg|apply Hs|now right|lra]. Qed.
Lemma Ht : is_unit t. Proof. apply refract_unit; first [apply Hg|apply Hs|apply tir2|lra]. Qed.
Lemma snell_norm a b na nb : snell g a b na nb -> 0 < na -> 0 < nb -> na * vnorm (cross g a) = nb * vnorm (cross g b).
Proof. intros E A B. apply (f_equal vnorm) in E. rewrite !vnorm_scale, !Rabs_pos_eq in E by lra. exact E. Qed.
Lemma tir3 : sqrt (1 - dot t g ^ 2) * n2 / n3 <= 1.
Proof.
  apply no_tir; [apply Hg|apply Ht|lra|lra|right].
  rewrite <- (snell_norm s t n1 n2); [assumption| |lra|lra]. apply refract_snell; first [apply Hg|apply Hs|lra|apply tir2].
Qed.
Lemma trace_out : snd (fast_ray_tracing camera m pp glass d n1 n2 n3) = refract g t n2 n3.
Proof.
  unfold fast_ray_tracing. cbn [snd]. fold (incoming camera m). fold s. fold g. fold t.
  unfold refract at 1. rewrite <- (refract_dot g s n1 n2) by (apply Hg || apply Hs || lra). fold t. reflexivity.
Qed.
Lemma trace_dirs : let out := snd (fast_ray_tracing camera m pp glass d n1 n2 n3) in
  is_unit t /\ is_unit out /\ snell g s t n1 n2 /\ snell g t out n2 n3 /\ dot t g <= 0 /\ dot out g <= 0 /\ in_plane g s out.
Proof.
  rewrite trace_out. cbv zeta. split; [apply Ht|]. split; [apply refract_unit; first [apply Hg|apply Ht|apply tir3|lra]|].
  split; [apply refract_snell; first [apply Hg|apply Hs|apply tir2|lra]|].
  split; [apply refract_snell; first [apply Hg|apply Ht|apply tir3|lra]|].
  assert (A : dot t g <= 0). { unfold t. rewrite refract_dot by first [apply Hg|apply Hs|apply tir2|lra]. pose proof (sqrt_pos (1 - (sqrt (1 - dot s g ^ 2) * n1 / n2) ^ 2)). lra. }
  split; [exact A|]. split.
  { rewrite refract_dot by first [apply Hg|apply Ht|apply tir3|lra]. match goal with |- - sqrt ?x <= 0 => pose proof (sqrt_pos x); lra end. }
  destruct (refract_plane g s n1 n2) as (a & b & E); try first [apply Hg|apply Hs|apply tir2|lra].
  destruct (refract_plane g t n2 n3) as (a' & b' & E'); try first [apply Hg|apply Ht|apply tir3|lra].
  rewrite E'. unfold t. rewrite E. exists (a' + a * b'), (b * b'). apply plane_comb.
Qed.
(** the vertex: from the camera straight to the outer face, along t through the glass to the inner face *)
Lemma trace_vertex : dot g s <> 0 -> n1 * vnorm (cross g s) < n2 ->
  exists Xb, on_line pp s Xb /\ dot g Xb = vnorm glass + d /\
    on_line Xb t (fst (fast_ray_tracing camera m pp glass d n1 n2 n3)) /\
    dot g (fst (fast_ray_tracing camera m pp glass d n1 n2 n3)) = vnorm glass.
Proof.
  intros NZ TS. unfold fast_ray_tracing. cbn [fst]. fold (incoming camera m). fold s. fold g. fold t.
  destruct (Req_EM_T (dot g s) 0) as [?|_]; [contradiction|].
  assert (TG : dot g t < 0).
  { rewrite dot_comm. unfold t. rewrite refract_dot by first [apply Hg|apply Hs|apply tir2|lra].
    assert (0 < sqrt (1 - (sqrt (1 - dot s g ^ 2) * n1 / n2) ^ 2)); [|lra]. apply sqrt_lt_R0.
    assert (E : vnorm (cross g s) = sqrt (1 - dot s g ^ 2)) by (rewrite vnorm_dot, cross_dot, Hg, Hs; f_equal; ring).
    rewrite E in TS. pose proof (sqrt_pos (1 - dot s g ^ 2)) as SP.
    assert (0 <= sqrt (1 - dot s g ^ 2) * n1 / n2 < 1).
    { split; [apply Rmult_le_pos; [nra|left; apply Rinv_0_lt_compat; lra]|]. apply Rmult_lt_reg_r with n2; [lra|]. replace (sqrt (1 - dot s g ^ 2) * n1 / n2 * n2) with (sqrt (1 - dot s g ^ 2) * n1) by (field; lra). lra. }
    nra. }
  destruct (Req_EM_T (Rabs (dot g t)) 0) as [X|_]; [apply Rabs_no_R0 in X; [contradiction|lra]|].
  exists (vadd pp (vscale s (- (dot g pp - (vnorm glass + d)) / dot g s))). split; [eexists; reflexivity|]. split; [rewrite dot_lin; field; assumption|]. split; [eexists; reflexivity|].
  rewrite !dot_lin, Rabs_left by assumption. field. split; [lra|assumption].
Qed.
Lemma trace_same : n1 = n2 -> n2 = n3 -> dot s g <= 0 -> snd (fast_ray_tracing camera m pp glass d n1 n2 n3) = s.
Proof.
  intros E1 E2 N. rewrite trace_out. unfold t. rewrite <- E1. rewrite refract_same by first [apply Hg|apply Hs|lra]. rewrite <- E2, <- E1.
  apply refract_same; first [apply Hg|apply Hs|lra].
Qed.
(** equal indices, straight line: the vertex lies on the camera ray *)
Lemma trace_same_vertex : n1 = n2 -> n2 = n3 -> dot s g < 0 -> on_line pp s (fst (fast_ray_tracing camera m pp glass d n1 n2 n3)).
Proof.
  intros E1 E2 N. unfold fast_ray_tracing. cbn [fst]. fold (incoming camera m). fold s. fold g. rewrite <- E1.
  rewrite refract_same by first [apply Hg|apply Hs|lra].
  destruct (Req_EM_T (dot g s) 0) as [?|_]; [rewrite dot_comm in N; lra|]. 
  rewrite line_comb. eexists. reflexivity.
Qed.
Lemma trace_away : n1 = n2 -> n2 = n3 -> 0 < dot s g -> snd (fast_ray_tracing camera m pp glass d n1 n2 n3) = vsub s (vscale g (2 * dot s g)).
Proof.
  intros E1 E2 N. rewrite trace_out. unfold t. rewrite <- E1, <- E2, <- E1. rewrite (refract_mirror g s) by first [apply Hg|apply Hs|lra].
  assert (D : dot (vsub s (vscale g (2 * dot s g))) g = - dot s g).
  { rewrite mirror_g, Hg. ring. }
  apply refract_same; try first [apply Hg|lra]. 
  - unfold is_unit. rewrite mirror_n, Hg, Hs. ring.
Qed.
End Trace.
