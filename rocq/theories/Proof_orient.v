From Coq Require Import Sorted.
From Verif Require Import Model_par Model_geo Spec_geo Proof_geo Model_orient Spec_orient Base.
Local Open Scope R_scope.
Lemma F2_length {A C} (P : A -> C -> Prop) l m : Forall2 P l m -> length l = length m.
Proof. induction 1; cbn; congruence. Qed.

Lemma upd_rot_idem c : update_rot (update_rot c) = update_rot c. Proof. reflexivity. Qed.
Lemma moved_0 c i : (i < 6)%nat -> moved c i 0 = update_rot c.
Proof.
  intros H. unfold moved, camera_at, update_rot, with_ext, rotation_matrix, ext_params, shift_at. rewrite !rot_product.
  do 6 (destruct i as [|i]; [cbn [firstn skipn nth app]; rewrite ?Rplus_0_r; destruct (e_pos (c_ext c)); reflexivity|]). lia.
Qed.
Definition B (pd : nat) (s : R) (c : calib) : calib := (if (2 <? pd)%nat then update_rot else (fun c => c)) (bump pd s c).
Lemma bump_rot c pd s : (pd < 6)%nat -> update_rot (bump pd s c) = moved c pd s.
Proof.
  intros H. unfold moved, camera_at, update_rot, with_ext, rotation_matrix, ext_params, shift_at, bump, with_ext. rewrite !rot_product.
  do 6 (destruct pd as [|pd]; [cbn; destruct (e_pos (c_ext c)); reflexivity|]). lia.
Qed.
Lemma bump_back c pd s : bump pd (- s) (bump pd s c) = c.
Proof.
  destruct c as [[[a b d] o p k m] i g ad l]. unfold bump, with_ext. do 6 (destruct pd as [|pd]; [cbn; f_equal; f_equal; try f_equal; ring|]). cbn; f_equal; f_equal; ring.
Qed.
Lemma rot_bump_rot c pd s : update_rot (bump pd s (update_rot c)) = update_rot (bump pd s c).
Proof. do 6 (destruct pd as [|pd]; [reflexivity|]). reflexivity. Qed.
Lemma bump_pos_rot c pd s : (pd < 3)%nat -> bump pd s (update_rot c) = update_rot (bump pd s c).
Proof. intros H. do 3 (destruct pd as [|pd]; [reflexivity|]). lia. Qed.
Lemma back_rot c pd s : update_rot (bump pd (- s) (update_rot (bump pd s c))) = update_rot c.
Proof. rewrite rot_bump_rot, bump_back. reflexivity. Qed.

Section D.
Variable mm : mmpar.
Variables dpos dang : R.
Variable pos : vec.
Definition step_of (pd : nat) : R := if (pd <? 3)%nat then dpos else dang.
Lemma deriv_step xs ys pd r c : deriv_loop mm dpos dang pos xs ys (pd :: r) c =
  match img_coord pos (B pd (step_of pd) c) mm with
  | Exn e => (B pd (step_of pd) c, Exn e)
  | Ok xy => let '(c', rr) := deriv_loop mm dpos dang pos xs ys r (bump pd (- step_of pd) (B pd (step_of pd) c)) in
             match rr with Ok rest => (c', Ok (((fst xy - xs) / step_of pd, (snd xy - ys) / step_of pd) :: rest)) | Exn e => (c', Exn e) end
  end.
Proof.
  cbn [deriv_loop]. unfold sbind, smod, simg. cbv beta iota zeta. fold (B pd (step_of pd) c).
  change (if (pd <? 3)%nat then dpos else dang) with (step_of pd).
  destruct (img_coord _ _ _); [|reflexivity]. destruct (deriv_loop _ _ _ _ _ _ r _) as [c' [rest|e]]; reflexivity.
Qed.
(** the loop, from a state that differs from c at most in the matrix *)
Lemma deriv_loop_ok xs ys c : forall pds, Forall (fun pd => (pd < 6)%nat) pds -> forall c0, update_rot c0 = update_rot c ->
  (Exists (fun pd => (pd < 3)%nat) pds -> c0 = update_rot c) -> StronglySorted le pds ->
  forall c' l, deriv_loop mm dpos dang pos xs ys pds c0 = (c', Ok l) ->
  update_rot c' = update_rot c /\
  Forall2 (fun pd d => exists x y, img_coord pos (moved c pd (step_of pd)) mm = Ok (x, y) /\ d = ((x - xs) / step_of pd, (y - ys) / step_of pd)) pds l.
Proof.
  induction pds as [|pd r IH]; intros F c0 H0 HU S c' l E.
  { cbn in E. injection E as <- <-. split; [exact H0|constructor]. }
  rewrite deriv_step in E. apply Forall_cons_iff in F. destruct F as [F1 F2]. apply StronglySorted_inv in S. destruct S as [S1 S2].
  assert (EB : B pd (step_of pd) c0 = moved c pd (step_of pd)).
  { rewrite <- bump_rot by exact F1. unfold B. destruct (2 <? pd)%nat eqn:T.
    - rewrite <- rot_bump_rot, H0. apply rot_bump_rot.
    - apply Nat.ltb_ge in T. rewrite HU by (constructor; lia). apply bump_pos_rot. lia. }
  rewrite EB in E. destruct (img_coord pos (moved c pd (step_of pd)) mm) as [[x y]|e] eqn:EI; [|discriminate].
  destruct (deriv_loop _ _ _ _ _ _ r _) as [c1 [rest|e]] eqn:ER; [|discriminate]. injection E as <- <-.
  destruct (IH F2 (bump pd (- step_of pd) (moved c pd (step_of pd)))) with (c' := c1) (l := rest) as (A & Bq); auto.
  - rewrite <- bump_rot by exact F1. apply back_rot.
  - intros X. rewrite <- bump_rot by exact F1. assert (pd < 3)%nat.
    { apply Exists_exists in X. destruct X as (q & I & L). rewrite Forall_forall in S2. apply S2 in I. lia. }
    rewrite bump_pos_rot by assumption. rewrite bump_back. reflexivity.
  - split; [exact A|]. constructor; [|exact Bq]. exists x, y. split; [exact EI|reflexivity].
Qed.
Lemma seq06_sorted : StronglySorted le (seq 0 6).
Proof. cbn. repeat (constructor; [|repeat (apply Forall_cons; [lia|]); apply Forall_nil]). constructor. Qed.
Lemma num_deriv_ok c c' xd yd : num_deriv_exterior mm dpos dang pos c = (c', Ok (xd, yd)) ->
  c' = update_rot c /\ exists x y, img_coord pos (update_rot c) mm = Ok (x, y) /\ length xd = 6%nat /\ length yd = 6%nat /\
  forall i, (i < 6)%nat -> exists xi yi, img_coord pos (moved c i (step_of i)) mm = Ok (xi, yi) /\
    nth i xd 0 = (xi - x) / step_of i /\ nth i yd 0 = (yi - y) / step_of i.
Proof.
  unfold num_deriv_exterior, sbind, smod, simg, sret. cbv beta iota zeta. destruct (img_coord pos (update_rot c) mm) as [[x y]|e] eqn:EI; [|discriminate].
  destruct (deriv_loop _ _ _ _ _ _ _ _) as [c1 [l|e]] eqn:EL; [|discriminate]. intros E. injection E as <- <- <-.
  apply (deriv_loop_ok _ _ c) in EL; [|repeat (apply Forall_cons; [lia|]); apply Forall_nil|reflexivity|reflexivity|exact seq06_sorted].
  destruct EL as (U & F). split; [exact U|]. exists x, y. split; [reflexivity|].
  pose proof (F2_length _ _ _ F) as L. rewrite !map_length, <- L, seq_length. split; [reflexivity|]. split; [reflexivity|].
  intros i Hi. cbn [fst snd] in F. assert (G : exists d, nth_error l i = Some d).
  { destruct (nth_error l i) eqn:N; [eauto|]. apply nth_error_None in N. rewrite <- L, seq_length in N. lia. }
  destruct G as (d & N). assert (Q : nth_error (seq 0 6) i = Some i).
  { rewrite (nth_error_nth' _ 0%nat) by (rewrite seq_length; lia). now rewrite seq_nth by lia. }
  assert (P : forall pds l' k pd d', Forall2 (fun pd d => exists x0 y0, img_coord pos (moved c pd (step_of pd)) mm = Ok (x0, y0) /\ d = ((x0 - x) / step_of pd, (y0 - y) / step_of pd)) pds l' ->
    nth_error pds k = Some pd -> nth_error l' k = Some d' -> exists x0 y0, img_coord pos (moved c pd (step_of pd)) mm = Ok (x0, y0) /\ d' = ((x0 - x) / step_of pd, (y0 - y) / step_of pd)).
  { clear. intros pds l' k. revert pds l'. induction k; intros pds l' pd d' F A Bq; destruct F; try discriminate; cbn in *; [injection A as <-; injection Bq as <-; assumption|eauto]. }
  destruct (P _ _ _ _ _ F Q N) as (xi & yi & EX & ED). exists xi, yi. split; [exact EX|].
  rewrite (nth_error_nth (map fst l) i 0 (x := fst d)) by (now rewrite nth_error_map, N).
  rewrite (nth_error_nth (map snd l) i 0 (x := snd d)) by (now rewrite nth_error_map, N). rewrite ED. split; reflexivity.
Qed.
End D.

(** ---- orient ---- *)
Lemma add_cc_back h c : add_cc (- h) (add_cc h c) = c.
Proof. destruct c as [e [a b d] g ad l]. unfold add_cc, with_int. cbn. f_equal. f_equal. ring. Qed.
Lemma wg_wg c a b : with_glass (with_glass c a) b = with_glass c b. Proof. reflexivity. Qed.
Lemma rot_add_cc h c : update_rot (add_cc h c) = add_cc h (update_rot c). Proof. reflexivity. Qed.
Section O.
Variable mm : mmpar. Variable cp : cpar. Variable tol : R. Variable lstsq : list (list R) -> list R -> result (nat -> R).
Variable fix_ : list vec. Variable pix : list pixel. Variable fl : orientpar. Variables h drad : R.

Lemma orient_point_ok g0 pos px py c c' o : orient_point mm cp tol g0 h drad pos px py c = (c', Ok o) -> c' = with_glass (update_rot c) g0.
Proof.
  unfold orient_point, sbind, sget, smod, simg, sret. cbv beta iota zeta.
  destruct (correct_brown_affine _ _ _ _) as [xc yc]. destruct (img_coord pos (update_rot c) mm) as [[xp yp]|]; [|discriminate].
  destruct (num_deriv_exterior mm h drad pos (update_rot c)) as [c1 [[xd yd]|]] eqn:EN; [|discriminate].
  apply num_deriv_ok in EN. destruct EN as (-> & _). rewrite upd_rot_idem.
  destruct (img_coord pos _ mm) as [q6|]; [|discriminate]. destruct (img_coord pos _ mm) as [q16|]; [|discriminate].
  destruct (img_coord pos _ mm) as [q17|]; [|discriminate]. destruct (img_coord pos _ mm) as [q18|]; [|discriminate].
  intros E. apply pair_equal_spec in E. destruct E as [<- _].
  rewrite !wg_wg, rot_add_cc, add_cc_back. reflexivity.
Qed.
Lemma usable_iff i pnr xy : nth_error pix i = Some (pnr, xy) -> (usable (op_use fl) i pnr = true <-> takes_part fl pix i).
Proof.
  intros N. unfold usable, takes_part. rewrite !andb_true_iff, !negb_true_iff, !andb_false_iff, !negb_false_iff, Z.eqb_eq, !Z.eqb_neq, Nat.eqb_neq. split.
  - intros (((-> & A) & Bq) & C). exists xy. split; [exact N|]. repeat split; intros U.
    + destruct A as [A|A]; [easy|]. unfold Nat.odd. now rewrite A.
    + now destruct Bq.
    + now destruct C.
  - intros (xy' & N' & A & Bq & C). rewrite N in N'. injection N' as -> ->. split; [split; [split; [reflexivity|]|]|].
    + destruct (Z.eq_dec (op_use fl) 1) as [U|U]; [right|left; exact U]. apply A in U. unfold Nat.odd in U. now apply negb_true_iff in U.
    + destruct (Z.eq_dec (op_use fl) 2) as [U|U]; [right|left; exact U]. now apply Bq.
    + destruct (Z.eq_dec (op_use fl) 3) as [U|U]; [right|left; exact U]. now apply C.
Qed.
(** the calibration after the loop over the points *)
Lemma points_ok g0 : forall idx c c' os, points mm cp tol fix_ pix fl h drad g0 idx c = (c', Ok os) ->
  (c' = c /\ (forall i, In i idx -> ~ takes_part fl pix i)) \/
  (c' = with_glass (update_rot c) g0 /\ Exists (takes_part fl pix) idx).
Proof.
  induction idx as [|i r IH]; intros c c' os E; cbn [points] in E.
  { injection E as <- <-. left. split; [reflexivity|]. intros i []. }
  destruct (nth_error pix i) as [[pnr [px py]]|] eqn:N; [|discriminate]. pose proof (usable_iff _ _ _ N) as U.
  destruct (usable (op_use fl) i pnr).
  - unfold sbind in E. destruct (orient_point mm cp tol g0 h drad _ px py c) as [c1 [o|]] eqn:EO; [|discriminate].
    apply orient_point_ok in EO. subst c1. destruct (points _ _ _ _ _ _ _ _ g0 r _) as [c2 [rest|]] eqn:ER; [|discriminate].
    cbn in E. injection E as <- <-. right. split; [|constructor; now apply U].
    apply IH in ER. destruct ER as [[-> _]|[-> _]]; reflexivity.
  - apply IH in E. destruct E as [[-> H]|[-> H]].
    + left. split; [reflexivity|]. intros j [<-|J]; [|now apply H]. intros T. now apply U in T.
    + right. split; [reflexivity|]. now apply Exists_cons_tl.
Qed.
Lemma points_rel g0 idx c c' os : points mm cp tol fix_ pix fl h drad g0 idx c = (c', Ok os) ->
  ext_params c' = ext_params c /\ c_int c' = c_int c /\ c_added c' = c_added c /\ c_lut c' = c_lut c /\ (c_glass c' = c_glass c \/ c_glass c' = g0).
Proof. intros E. apply points_ok in E. destruct E as [[-> _]|[-> _]]; repeat split; auto. Qed.
Lemma pass_ok g0 a0 c c' p : pass mm cp tol lstsq fix_ pix fl h drad g0 a0 c = (c', Ok p) ->
  exists c1 os beta, points mm cp tol fix_ pix fl h drad g0 (seq 0 (length fix_)) c = (c1, Ok os) /\
    solve lstsq fix_ fl os a0 c1 = Ok beta /\ c' = apply_beta fl g0 (freeze fl beta) c1 /\
    p = mk_pass (converged fl beta) os (design_y fix_ os a0 c1) (freeze fl beta).
Proof.
  unfold pass, sbind, sget, slift, smod, sret. destruct (points _ _ _ _ _ _ _ _ g0 _ c) as [c1 [os|]]; [|discriminate].
  destruct (solve _ _ _ os a0 c1) as [beta|] eqn:ES; [|discriminate]. intros E. injection E as <- <-. exists c1, os, beta. auto.
Qed.
Definition keep (c c' : calib) : Prop :=
  c_lut c' = c_lut c /\ (forall i, (i < 10)%nat -> nth i (inner_flags fl) 1%Z = 0%Z -> nth i (inner_params c') 0 = nth i (inner_params c) 0).
Lemma keep_trans a b c : keep a b -> keep b c -> keep a c.
Proof. intros (A & A') (Bq & B'). split; [congruence|]. intros i L F. rewrite B', A'; auto. Qed.
Lemma on_0 z : z = 0%Z -> on z = false. Proof. now intros ->. Qed.
Lemma apply_keep g0 beta c : keep c (apply_beta fl g0 (freeze fl beta) c).
Proof.
  split; [reflexivity|]. intros i L F.
  do 10 (destruct i as [|i]; [cbn [nth inner_flags] in F; cbn [nth inner_params apply_beta c_int c_added cc xh yh k1 k2 k3 p1 p2 scx she];
    unfold freeze; cbn [Nat.leb Nat.ltb andb Nat.sub nth flag_list]; rewrite (on_0 _ F); ring|]). lia.
Qed.
Lemma pass_keep g0 a0 c c' p : pass mm cp tol lstsq fix_ pix fl h drad g0 a0 c = (c', Ok p) ->
  keep c c' /\ (op_interf fl = 0%Z -> c_glass c = g0 -> c_glass c' = g0).
Proof.
  intros E. apply pass_ok in E. destruct E as (c1 & os & beta & EP & _ & -> & _). apply points_rel in EP. destruct EP as (X & I & A & L & G). split.
  - eapply keep_trans; [|apply apply_keep]. split; [exact L|]. intros i _ _. unfold inner_params. now rewrite I, A.
  - intros F G0. unfold apply_beta. cbn [c_glass]. rewrite (on_0 _ F). destruct G as [-> | ->]; auto.
Qed.
Lemma passes_eq g0 a0 k c : passes mm cp tol lstsq fix_ pix fl h drad g0 a0 k c =
  match pass mm cp tol lstsq fix_ pix fl h drad g0 a0 c with
  | (c', Ok p) => if ps_stop p then (c', Ok p) else match k with O => (c', Ok p) | S k' => passes mm cp tol lstsq fix_ pix fl h drad g0 a0 k' c' end
  | (c', Exn e) => (c', Exn e)
  end.
Proof. destruct k; cbn [passes]; unfold sbind, sret; destruct (pass _ _ _ _ _ _ _ _ _ g0 a0 c) as [c' [p|]]; try reflexivity; destruct (ps_stop p); reflexivity. Qed.
Lemma passes_keep g0 a0 : forall k c c' p, passes mm cp tol lstsq fix_ pix fl h drad g0 a0 k c = (c', Ok p) ->
  keep c c' /\ (op_interf fl = 0%Z -> c_glass c = g0 -> c_glass c' = g0).
Proof.
  induction k as [|k IH]; intros c c' p E; rewrite passes_eq in E; destruct (pass _ _ _ _ _ _ _ _ _ g0 a0 c) as [c1 [q|]] eqn:EP; try discriminate; apply pass_keep in EP.
  - destruct (ps_stop q); injection E as <- <-; exact EP.
  - destruct (ps_stop q). { injection E as <- <-; exact EP. } apply IH in E. destruct EP as (A & G), E as (A' & G'). split; [eapply keep_trans; eassumption|auto].
Qed.
(** the last pass, the passes before it did not converge; their solutions *)
Lemma passes_last g0 a0 : forall k c c' p, passes mm cp tol lstsq fix_ pix fl h drad g0 a0 k c = (c', Ok p) ->
  exists c0, pass mm cp tol lstsq fix_ pix fl h drad g0 a0 c0 = (c', Ok p).
Proof.
  induction k as [|k IH]; intros c c' p E; rewrite passes_eq in E; destruct (pass _ _ _ _ _ _ _ _ _ g0 a0 c) as [c1 [q|]] eqn:EP; try discriminate.
  - destruct (ps_stop q); injection E as <- <-; exists c; exact EP.
  - destruct (ps_stop q); [injection E as <- <-; exists c; exact EP|]. now apply IH in E.
Qed.
Definition all_steps (bs : list (nat -> R)) (c c' : calib) : Prop := forall i, (i < 6)%nat -> nth i (ext_params c') 0 = nth i (ext_params c) 0 + total i bs.
Lemma apply_steps g0 b c : all_steps [b] c (apply_beta fl g0 b c).
Proof. intros i L. unfold total. do 6 (destruct i as [|i]; [cbn; ring|]). lia. Qed.
Lemma freeze_ext beta i : (i < 6)%nat -> freeze fl beta i = beta i.
Proof. intros L. unfold freeze. destruct (Nat.leb_spec 6 i); [lia|]. reflexivity. Qed.
Lemma passes_steps g0 a0 : forall k c c' p, passes mm cp tol lstsq fix_ pix fl h drad g0 a0 k c = (c', Ok p) -> ps_stop p = false ->
  exists bs, length bs = S k /\ Forall (fun b => (exists X y, lstsq X y = Ok b) /\ exists i, (i < numbers fl)%nat /\ CONVERGENCE < Rabs (b i)) bs /\ all_steps bs c c'.
Proof.
  assert (P1 : forall c c' p, pass mm cp tol lstsq fix_ pix fl h drad g0 a0 c = (c', Ok p) -> ps_stop p = false ->
    exists b, ((exists X y, lstsq X y = Ok b) /\ exists i, (i < numbers fl)%nat /\ CONVERGENCE < Rabs (b i)) /\ all_steps [b] c c').
  { intros c c' p E S. apply pass_ok in E. destruct E as (c1 & os & beta & EP & ES & -> & ->). exists beta. cbn [ps_stop] in S. split; [split|].
    - unfold solve in ES. eauto.
    - unfold converged in S. apply not_true_iff_false in S. rewrite forallb_forall in S.
      assert (Q : ~ Forall (fun i => Rabs (beta i) <= CONVERGENCE) (seq 0 (numbers fl))).
      { intros F. apply S. intros i Hi. rewrite Forall_forall in F. apply F in Hi. unfold Rleb. now destruct (Rle_dec _ _). }
      apply Exists_Forall_neg in Q; [|intros i; destruct (Rle_dec (Rabs (beta i)) CONVERGENCE); tauto].
      apply Exists_exists in Q. destruct Q as (i & Hi & L). apply in_seq in Hi. exists i. split; [lia|lra].
    - apply points_rel in EP. destruct EP as (X & _). intros i L. rewrite <- X.
      rewrite (apply_steps g0 (freeze fl beta) c1 i L). unfold total. cbn [map fold_right]. now rewrite freeze_ext. }
  induction k as [|k IH]; intros c c' p E S; rewrite passes_eq in E; destruct (pass _ _ _ _ _ _ _ _ _ g0 a0 c) as [c1 [q|]] eqn:EP; try discriminate.
  - assert (E' : (c1, Ok q) = (c', Ok p)) by (destruct (ps_stop q); exact E). injection E' as -> ->. destruct (P1 _ _ _ EP S) as (b & Hb & A). exists [b]. split; [reflexivity|]. split; [|exact A]. apply Forall_cons; [exact Hb|apply Forall_nil].
  - destruct (ps_stop q) eqn:Q; [injection E as <- <-; congruence|]. destruct (P1 _ _ _ EP Q) as (b & Hb & A). destruct (IH _ _ _ E S) as (bs & L & F & A').
    exists (b :: bs). split; [cbn; now rewrite L|]. split; [apply Forall_cons; assumption|]. intros i Li. rewrite (A' i Li), (A i Li). unfold total. cbn [map fold_right]. ring.
Qed.
End O.
