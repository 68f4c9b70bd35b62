(** Property C76: the layers of a medium. *)
From Verif Require Import Base Model_geo Spec_geo Spec_geo2 Model_geo2 Spec_geo3 Proof_geo Proof_geo5 Proof_geo8 Proof_geo9 Prop_geo Proof_geo16.
Local Open Scope R_scope.

(** ===== C76 =====
    set_layers with lists of different lengths raises ValueError and changes nothing;
    otherwise both lists are replaced and nothing else; so after any history the two
    lists have the same length *)
Theorem C76_set : forall mm n2 d, let '(m, r) := set_layers mm n2 d in
  (r = Ok tt /\ length n2 = length d /\ m_n2 m = n2 /\ m_d m = d \/ r = Exn ValueError /\ length n2 <> length d /\ m = mm) /\
  m_n1 m = m_n1 mm /\ m_n3 m = m_n3 mm /\ m_nlay m = m_nlay mm.
Proof. exact layers_set. Qed.
Print Assumptions C76_set.
Theorem C76_lengths : forall nlay n1 n2 d n3 mm xs, new_medium nlay n1 n2 d n3 = Ok mm ->
  let m := fold_left mm_step xs mm in length (m_n2 m) = length (m_d m) /\ m_nlay m = nlay.
Proof.
  intros nlay n1 n2 d n3 mm xs E. unfold new_medium in E. destruct (Nat.eqb_spec (length n2) (length d)) as [L|]; [|discriminate]. injection E as <-.
  apply history_lengths. exact L.
Qed.
Print Assumptions C76_lengths.
(** setting the index on the air side, or of the medium of the object, changes that and nothing else *)
Theorem C76_indices : forall mm n,
  (m_n1 (mm_step mm (SetN1 n)) = n /\ m_n3 (mm_step mm (SetN1 n)) = m_n3 mm) /\
  (m_n3 (mm_step mm (SetN3 n)) = n /\ m_n1 (mm_step mm (SetN3 n)) = m_n1 mm) /\
  forall x, x = SetN1 n \/ x = SetN3 n -> m_n2 (mm_step mm x) = m_n2 mm /\ m_d (mm_step mm x) = m_d mm /\ m_nlay (mm_step mm x) = m_nlay mm.
Proof. intros mm n. split; [split; reflexivity|]. split; [split; reflexivity|]. intros x [-> | ->]; repeat split. Qed.
Print Assumptions C76_indices.
Theorem C76_refused : forall nlay n1 n2 d n3, length n2 <> length d -> new_medium nlay n1 n2 d n3 = Exn ValueError.
Proof. intros nlay n1 n2 d n3 H. unfold new_medium. destruct (Nat.eqb_spec (length n2) (length d)); [contradiction|reflexivity]. Qed.
Print Assumptions C76_refused.
(** the refractive indices of the inner layers do not enter the projection, and the inner layers do not enter the ray tracing at all:
    true for every camera, point and medium *)
Theorem C76_inner_index_refuted : forall a b p c, m_n1 a = m_n1 b -> m_n3 a = m_n3 b -> nth 0 (m_n2 a) 0 = nth 0 (m_n2 b) 0 -> m_d a = m_d b -> m_nlay a = m_nlay b ->
  flat_image_coord p c a = flat_image_coord p c b /\ img_coord p c a = img_coord p c b.
Proof.
  intros a b p c H1 H3 H2 HD HN. assert (flat_image_coord p c a = flat_image_coord p c b) as E by (apply flat_same; [repeat split; assumption|exact HD|exact HN]).
  split; [exact E|]. unfold img_coord. rewrite E. reflexivity.
Qed.
Print Assumptions C76_inner_index_refuted.
Theorem C76_ray_layers_refuted : forall a b x y c, m_n1 a = m_n1 b -> m_n3 a = m_n3 b -> nth 0 (m_n2 a) 0 = nth 0 (m_n2 b) 0 -> nth 0 (m_d a) 0 = nth 0 (m_d b) 0 ->
  ray_tracing x y c a = ray_tracing x y c b.
Proof. intros a b x y c H1 H3 H2 HD. apply ray_same; [repeat split; assumption|exact HD]. Qed.
Print Assumptions C76_ray_layers_refuted.
(** the default medium stays air to the projection, whatever layers are added behind a first one of index 1 *)
Theorem C76_air_refuted : forall n2 d, length d = S (length n2) ->
  let mm := fst (set_layers default_medium (1 :: n2) d) in
  m_n2 mm = 1 :: n2 /\ m_d mm = d /\ forall p c, c_glass c <> vzero -> depth c p <> 0 -> flat_image_coord p c mm = Ok (pinhole c p).
Proof.
  intros n2 d L. unfold set_layers. cbn [length]. rewrite L, Nat.eqb_refl. cbn [fst m_n2 m_d default_medium m_nlay m_n1 m_n3]. split; [reflexivity|]. split; [reflexivity|].
  intros p c G D. apply C46_pinhole; [exact G| |exact D]. repeat split.
Qed.
Print Assumptions C76_air_refuted.
(** a homogeneous medium (index n) built from two layers with set_layers: the count of layers stays one, and every
    point off the axis appears displaced towards the axis by a factor f between 1 - t and 1 - t + t^2 < 1 ...*)
Theorem C76_count_refuted : forall n d0 d1 x y z, n <> 0 -> n <> 1 -> 0 < d1 < 10 - z -> (x <> 0 \/ y <> 0) ->
  let t := d1 / (10 - z) in
  exists f, 1 - t <= f <= 1 - t + t * t /\ 1 - t + t * t < 1 /\
    flat_image_coord (V x y z) simple_cal (fst (set_layers (mk_mm 1 n [n] [d0] n) [n; n] [d0; d1])) = Ok (f * x / (10 - z), f * y / (10 - z)).
Proof.
  intros n d0 d1 x y z N0 N1 D XY t. destruct (stale_projection n d0 d1 x y z N0 N1 D XY) as (f & F & E). fold t in F. exists f. split; [exact F|]. split; [|exact E].
  pose proof (t_range d1 10 z D) as T. fold t in T. nra.
Qed.
Print Assumptions C76_count_refuted.
(** ... though with the right count it is seen where it is *)
Theorem C76_right_count : forall n k d c p, n <> 0 -> length d = S k ->
  c_glass c <> vzero -> depth c p <> 0 -> dot (vsub p (e_pos (c_ext c))) (c_glass c) <> 0 -> l_nr (c_lut c) = 0%Z -> l_nz (c_lut c) = 0%Z ->
  exists mm, new_medium (Z.of_nat (S k)) n (repeat n (S k)) d n = Ok mm /\ flat_image_coord p c mm = Ok (pinhole c p).
Proof.
  intros n k d c p N L G D H T1 T2. exists (mk_mm (Z.of_nat (S k)) n (repeat n (S k)) d n). split.
  { unfold new_medium. rewrite repeat_length, L, Nat.eqb_refl. reflexivity. }
  set (mm := mk_mm _ _ _ _ _). destruct (C46_total_without_table p c mm T1 T2) as (xy & E). rewrite E. f_equal.
  apply (C46_equal_indices _ _ _ _ G) in E; [exact E| |exact D|exact H].
  split; [exact N|]. split; [reflexivity|]. split; [cbn [mm m_nlay m_d]; now rewrite L|]. destruct d as [|d0 d]; [discriminate|]. exists d0. split; reflexivity.
Qed.
(** in particular the two layers that [set_layers] mistreats above *)
Example C76_right_count_case : forall n d0 d1 x y z, n <> 0 -> z < 10 ->
  exists mm, new_medium 2 n [n; n] [d0; d1] n = Ok mm /\ flat_image_coord (V x y z) simple_cal mm = Ok (x / (10 - z), y / (10 - z)).
Proof.
  intros n d0 d1 x y z N Z. assert (D : depth simple_cal (V x y z) = z - 10) by (unfold depth; rewrite simple_dm; unfold dot, col3; cbn; ring).
  destruct (C76_right_count n 1 [d0; d1] simple_cal (V x y z) N eq_refl) as (mm & A & B).
  - intros Q. injection Q. lra.
  - rewrite D. lra.
  - unfold dot. cbn. lra.
  - reflexivity.
  - reflexivity.
  - exists mm. split; [exact A|]. rewrite B. f_equal. unfold pinhole. rewrite D, simple_dm. change (cc (c_int simple_cal)) with 1. unfold dot, col1, col2. cbn. f_equal; field; lra.
Qed.
Print Assumptions C76_right_count.
(** a negative count is accepted, too: it counts the layers from the last one *)
Theorem C76_negative_refuted : forall n1 n2 d n3 k p c, (1 <= k)%nat -> (k + 2 <= length d)%nat ->
  flat_image_coord p c (mk_mm (- Z.of_nat k) n1 n2 d n3) = flat_image_coord p c (mk_mm (Z.of_nat (length d - k)) n1 n2 d n3).
Proof.
  intros n1 n2 d n3 k p c K L. set (a := mk_mm (- Z.of_nat k) n1 n2 d n3). set (b := mk_mm (Z.of_nat (length d - k)) n1 n2 d n3).
  assert (E : layers_from1 (m_nlay a) (m_d a) = layers_from1 (m_nlay b) (m_d b)).
  { unfold layers_from1, a, b. cbn [m_nlay m_d]. destruct (Z.ltb_spec (- Z.of_nat k) 0); [|lia]. destruct (Z.ltb_spec (Z.of_nat (length d - k)) 0); [lia|]. do 3 f_equal. lia. }
  assert (O : one_medium a = one_medium b).
  { unfold one_medium, n2_0, a, b. cbn [m_nlay m_n1 m_n2 m_n3]. destruct (Z.eqb_spec (- Z.of_nat k) 1); [lia|]. destruct (Z.eqb_spec (Z.of_nat (length d - k)) 1); [lia|]. reflexivity. }
  assert (M : forall l cam pos, multimed_nlay l a cam pos = multimed_nlay l b cam pos).
  { intros l cam pos. unfold multimed_nlay, multimed_r_nlay. rewrite O.
    assert (Q : fast_multimed_r_nlay a cam pos = fast_multimed_r_nlay b cam pos).
    { unfold fast_multimed_r_nlay. rewrite E. rewrite (loop_same a b) by (repeat split). reflexivity. }
    rewrite Q. reflexivity. }
  assert (D0 : d_0 a = d_0 b) by reflexivity. clearbody a b. unfold flat_image_coord. rewrite D0. destruct (trans_cam_point _ _ _ _) as [[[pt cp] ccr] z0]. cbv zeta. rewrite M. reflexivity.
Qed.
Print Assumptions C76_negative_refuted.
Example C76_example : let mm := fst (set_layers default_medium [1; 4/3] [1; 5]) in m_nlay mm = 1%Z /\ length (m_d mm) = 2%nat /\ 0 < 5 < 10 - 0.
Proof. cbn. split; [reflexivity|]. split; [reflexivity|lra]. Qed.
