(** The linear systems solved by raw_orient. *)
From Verif Require Import Model_par Model_geo Spec_geo Proof_geo Model_orient Spec_orient Proof_orient Proof_orient2 Proof_orient3 Base.
Local Open Scope R_scope.
Section R.
Variable mm : mmpar. Variable cp : cpar. Variable lstsq : list (list R) -> list R -> result (nat -> R).
Variable fix_ : list vec. Variable pix : list pixel. Variables h drad : R.
Lemma moved_rot c j s : moved (update_rot c) j s = moved c j s. Proof. reflexivity. Qed.
Lemma cam_self c : camera_at c (ext_params c) = update_rot c.
Proof. unfold camera_at, update_rot, with_ext, rotation_matrix, ext_params. rewrite rot_product. cbn [nth]. destruct (e_pos (c_ext c)); reflexivity. Qed.
Definition row_ok (cam : calib) (i : nat) (o : obs) : Prop := exists pnr px py x0 y0,
    nth_error pix i = Some (pnr, (px, py)) /\ img_coord (nth i fix_ vzero) cam mm = Ok (x0, y0) /\
    snd o = ((px - IZR (imx_ cp) / 2) * pix_x_ cp - x0, (IZR (imy_ cp) / 2 - py) * pix_y_ cp - y0) /\
    forall j, (j < 6)%nat -> let s := if (j <? 3)%nat then h else drad in
      exists xj yj, img_coord (nth i fix_ vzero) (moved cam j s) mm = Ok (xj, yj) /\
      nth j (fst (fst o)) 0 = (xj - x0) / s /\ nth j (snd (fst o)) 0 = (yj - y0) / s.
Lemma raw_points_rows : forall idx c c' os, raw_points mm cp fix_ pix h drad idx c = (c', Ok os) ->
  update_rot c' = update_rot c /\ Forall2 (row_ok (update_rot c)) idx os.
Proof.
  induction idx as [|i r IH]; intros c c' os E; cbn [raw_points] in E; [injection E as <- <-; split; [reflexivity|constructor]|].
  destruct (nth_error pix i) as [[pnr [px py]]|] eqn:NP; [|discriminate]. unfold pixel_to_metric in E.
  unfold sbind, smod, simg in E. destruct (img_coord _ (update_rot c) mm) as [[x0 y0]|] eqn:EI; [|discriminate].
  destruct (num_deriv_exterior mm h drad _ (update_rot c)) as [c1 [[xd yd]|]] eqn:EN; [|discriminate]. apply num_deriv_ok in EN. destruct EN as (-> & x & y & EX & _ & _ & D).
  rewrite upd_rot_idem in EX, E. rewrite EI in EX. injection EX as <- <-.
  destruct (raw_points mm cp fix_ pix h drad r _) as [c2 [rest|]] eqn:ER; [|discriminate]. cbn in E. apply pair_equal_spec in E. destruct E as [<- E]. injection E as <-.
  apply IH in ER. rewrite upd_rot_idem in ER. destruct ER as (U & F). split; [exact U|]. constructor; [|exact F].
  exists pnr, px, py, x0, y0. split; [exact NP|]. split; [exact EI|]. split; [reflexivity|]. intros j Hj s. destruct (D j Hj) as (xj & yj & A & B & C). exists xj, yj. repeat split; assumption.
Qed.
Lemma rows_nth {A B} (f g : A -> B) d : forall l i x, nth_error l i = Some x ->
  nth (2 * i) (flat_map (fun o => [f o; g o]) l) d = f x /\ nth (2 * i + 1) (flat_map (fun o => [f o; g o]) l) d = g x.
Proof.
  induction l as [|a l IH]; intros [|i] x E; try discriminate; cbn in E; [injection E as <-; split; reflexivity|].
  destruct (IH _ _ E) as (P & Q). replace (2 * S i)%nat with (S (S (2 * i))) by lia. replace (S (S (2 * i)) + 1)%nat with (S (S (2 * i + 1))) by lia. cbn [flat_map app nth]. now split.
Qed.
Lemma rows_len {A B} (f g : A -> B) : forall l, length (flat_map (fun o => [f o; g o]) l) = (2 * length l)%nat.
Proof. induction l; cbn [flat_map app length]; lia. Qed.
Lemma F2_nth_l {A B} (P : A -> B -> Prop) : forall l m, Forall2 P l m -> forall i a, nth_error l i = Some a -> exists b, nth_error m i = Some b /\ P a b.
Proof.
  induction 1 as [|x y l m Q F IH]; intros [|i] a E; [discriminate E|discriminate E| |]; cbn in E; [injection E as <-; exists y; split; [reflexivity|exact Q]|exact (IH _ _ E)].
Qed.
Lemma seq_nth_error n i : (i < n)%nat -> nth_error (seq 0 n) i = Some i.
Proof. intros H. rewrite (nth_error_nth' _ 0%nat) by (rewrite seq_length; lia). now rewrite seq_nth by lia. Qed.
Lemma raw_pass_sys c c' s : raw_pass mm cp lstsq fix_ pix h drad c = (c', Ok s) ->
  exists b X y, lstsq X y = Ok b /\ ext_system mm cp fix_ pix h drad (update_rot c) X y /\ s = raw_converged b /\ update_rot c' = camera_at c (corrected c [b]).
Proof.
  unfold raw_pass, sbind, slift, smod, sret. destruct (raw_points mm cp fix_ pix h drad _ c) as [c1 [os|]] eqn:EP; [|discriminate].
  destruct (lstsq _ _) as [b|] eqn:EL; [|discriminate]. intros E. apply pair_equal_spec in E. destruct E as [<- E]. injection E as <-.
  apply raw_points_rows in EP. destruct EP as (U & F). eexists b, _, _. split; [exact EL|]. pose proof (F2_length _ _ _ F) as L. rewrite seq_length in L. split; [|split; [reflexivity|]].
  - assert (L2 : (2 * length os = 2 * length fix_)%nat) by (rewrite <- L; reflexivity). split; [exact (eq_trans (rows_len _ _ os) L2)|]. split; [exact (eq_trans (rows_len _ _ os) L2)|]. intros i P N.
    assert (Li : (i < length fix_)%nat) by (apply nth_error_Some; congruence).
    destruct (F2_nth_l _ _ _ F i i (seq_nth_error _ _ Li)) as (o & NO & pnr & px & py & x0 & y0 & A & B & C & D).
    rewrite (nth_error_nth _ _ _ N) in B. exists pnr, px, py, x0, y0. split; [exact A|]. split; [exact B|].
    destruct (rows_nth (fun o : obs => fst (snd o)) (fun o => snd (snd o)) 0 _ _ _ NO) as (Q1 & Q2).
    destruct (rows_nth (fun o : obs => fst (fst o)) (fun o => snd (fst o)) [] _ _ _ NO) as (Q3 & Q4). rewrite C in Q1, Q2. split; [exact Q1|]. split; [exact Q2|].
    intros j Hj s. destruct (D j Hj) as (xj & yj & K). rewrite (nth_error_nth _ _ _ N) in K. exists xj, yj. destruct K as (K1 & K2 & K3). split; [exact K1|]. rewrite <- Q3 in K2. rewrite <- Q4 in K3. split; [exact K2|exact K3].
  - assert (UA : update_rot (raw_apply b c1) = update_rot (raw_apply b (update_rot c1))) by reflexivity. rewrite UA, U.
    unfold camera_at, corrected, total. cbn [map seq nth fold_right]. unfold update_rot, raw_apply, with_ext, rotation_matrix, ext_params. rewrite !rot_product. cbn [c_ext e_pos omega phi kappa c_int c_glass c_added c_lut vx vy vz nth].
    rewrite !Rplus_0_r. reflexivity.
Qed.
Definition chain (c : calib) (bs : list (nat -> R)) : Prop := forall k b, nth_error bs k = Some b ->
  exists X y, lstsq X y = Ok b /\ ext_system mm cp fix_ pix h drad (camera_at c (corrected c (firstn k bs))) X y.
Lemma corrected_nil c : corrected c [] = ext_params c.
Proof. unfold corrected, total. cbn [map seq nth fold_right ext_params]. rewrite !Rplus_0_r. reflexivity. Qed.
Lemma corrected_ext c l : length l = 6%nat -> ext_params (camera_at c l) = l.
Proof. intros L. do 6 (destruct l as [|? l]; [discriminate|]). destruct l; [reflexivity|discriminate]. Qed.
Lemma corrected_len c bs : length (corrected c bs) = 6%nat. Proof. reflexivity. Qed.
Lemma corrected_rot c bs : corrected (update_rot c) bs = corrected c bs. Proof. reflexivity. Qed.
Lemma cam_cam c l m : camera_at (camera_at c l) m = camera_at c m. Proof. reflexivity. Qed.
Lemma cam_rot c l : camera_at (update_rot c) l = camera_at c l. Proof. reflexivity. Qed.
Lemma corrected_cons c b bs : corrected (camera_at c (corrected c [b])) bs = corrected c (b :: bs).
Proof.
  unfold corrected at 1. rewrite corrected_ext by apply corrected_len. unfold corrected at 2. apply map_ext_in. intros i Hi. apply in_seq in Hi.
  unfold corrected. do 6 (destruct i as [|i]; [cbn [nth map seq]; unfold total; cbn [map fold_right]; ring|]). lia.
Qed.
Lemma chain_cons c c1 b bs X y : lstsq X y = Ok b -> ext_system mm cp fix_ pix h drad (update_rot c) X y -> update_rot c1 = camera_at c (corrected c [b]) -> chain c1 bs -> chain c (b :: bs).
Proof.
  intros S E U C [|k] x N; cbn in N.
  - injection N as <-. cbn [firstn]. rewrite corrected_nil, cam_self. eauto.
  - destruct (C k x N) as (X' & y' & A & B). exists X', y'. split; [exact A|]. cbn [firstn]. rewrite <- corrected_cons, <- U.
    rewrite corrected_rot. rewrite <- cam_rot in B. rewrite U in B. rewrite cam_cam in B. exact B.
Qed.
Lemma raw_passes_sys : forall k c c' s, raw_passes mm cp lstsq fix_ pix h drad k c = (c', Ok s) ->
  exists bs b, update_rot c' = camera_at c (corrected c (bs ++ [b])) /\ (length bs <= k)%nat /\ chain c (bs ++ [b]) /\
  Forall (fun b => raw_converged b = false) bs /\ raw_converged b = s /\ (s = false -> length bs = k).
Proof.
  assert (EQ : forall k c, raw_passes mm cp lstsq fix_ pix h drad k c = match raw_pass mm cp lstsq fix_ pix h drad c with
    | (c1, Ok s) => if s : bool then (c1, Ok true) else match k with O => (c1, Ok false) | S k' => raw_passes mm cp lstsq fix_ pix h drad k' c1 end | (c1, Exn e) => (c1, Exn e) end).
  { intros k c. destruct k; cbn [raw_passes]; unfold sbind, sret; destruct (raw_pass mm cp lstsq fix_ pix h drad c) as [c1 [[|]|]]; reflexivity. }
  assert (ONE : forall c c1 b X y, lstsq X y = Ok b -> ext_system mm cp fix_ pix h drad (update_rot c) X y -> update_rot c1 = camera_at c (corrected c [b]) -> chain c [b]).
  { intros c c1 b X y S E U. eapply chain_cons; eauto. intros [|k] x N; discriminate. }
  induction k as [|k IH]; intros c c' s E; rewrite EQ in E; destruct (raw_pass mm cp lstsq fix_ pix h drad c) as [c1 [s1|]] eqn:EP; try discriminate; apply raw_pass_sys in EP; destruct EP as (b & X & y & L & SY & S & A); destruct s1.
  - injection E as <- <-. exists [], b. cbn. repeat split; eauto.
  - injection E as <- <-. exists [], b. cbn. repeat split; eauto.
  - injection E as <- <-. exists [], b. cbn. repeat split; eauto; [lia|discriminate].
  - apply IH in E. destruct E as (bs & b' & A' & LE & F & F' & C & Z). exists (b :: bs), b'. cbn [app length]. split; [|split; [lia|split; [eapply chain_cons; eauto|split; [apply Forall_cons; [symmetry; exact S|assumption]|split; [exact C|intros Q; rewrite (Z Q); reflexivity]]]]].
    rewrite A', <- cam_rot, <- corrected_rot, A, corrected_cons, cam_cam. reflexivity.
Qed.
Lemma raw_orient_sys c c' s : raw_orient mm cp lstsq fix_ pix h drad c = (c', Ok s) ->
  exists bs b, (length bs <= 19)%nat /\ chain (with_added c no_distortion) (bs ++ [b]) /\ Forall (fun b => raw_converged b = false) bs /\
  ext_params c' = corrected c (bs ++ [b]) /\ raw_converged b = s /\ (s = false -> length bs = 19%nat) /\ (s = true -> consistent (c_ext c')).
Proof.
  unfold raw_orient, sbind, smod, sret. change default_added with no_distortion. destruct (raw_passes mm cp lstsq fix_ pix h drad 19 _) as [c1 [s1|]] eqn:EP; [|discriminate].
  apply raw_passes_sys in EP. destruct EP as (bs & b & A & LE & F & F' & C & Z). intros E. exists bs, b.
  assert (G : update_rot c' = update_rot c1 /\ s = s1 /\ (s = true -> consistent (c_ext c'))).
  { destruct s1; apply pair_equal_spec in E; destruct E as [<- E]; injection E as <-; repeat split; [|discriminate].
    intros _. unfold consistent, update_rot, with_ext, rotation_matrix. cbn [c_ext dm omega phi kappa]. apply rot_product. }
  destruct G as (X & -> & K). rewrite A in X. split; [exact LE|]. split; [exact F|]. split; [exact F'|]. split; [|auto].
  change (ext_params c') with (ext_params (update_rot c')). rewrite X. apply corrected_ext, corrected_len.
Qed.
End R.
