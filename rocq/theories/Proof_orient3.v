From Coq Require Import Sorted.
From Verif Require Import Model_par Model_geo Spec_geo Proof_geo Model_orient Spec_orient Proof_orient Proof_orient2 Lib Base.
Local Open Scope R_scope.

Lemma nth_zip {A B C} (f : A -> B -> C) l m k : nth_error (zip_with f l m) k = match nth_error l k, nth_error m k with Some a, Some b => Some (f a b) | _, _ => None end.
Proof.
  unfold zip_with. revert m k. induction l as [|a l IH]; intros m k; [destruct k; reflexivity|]. destruct m as [|b m]; [destruct k; cbn; [reflexivity|destruct (nth_error l k); reflexivity]|].
  destruct k; [reflexivity|]. cbn. apply IH.
Qed.
Lemma nth_flat2 {A B} (f g : A -> B) l t k o : nth_error l k = Some o ->
  nth_error (flat_map (fun o => [f o; g o]) l ++ t) (2 * k) = Some (f o) /\ nth_error (flat_map (fun o => [f o; g o]) l ++ t) (2 * k + 1) = Some (g o).
Proof.
  revert k. induction l as [|a l IH]; intros k H; [destruct k; discriminate|]. destruct k as [|k]; [cbn in H; injection H as <-; split; reflexivity|].
  replace (2 * S k)%nat with (S (S (2 * k))) by lia. cbn [flat_map app nth_error plus]. apply IH. exact H.
Qed.
Lemma len_flat2 {A B} (f g : A -> B) l : length (flat_map (fun o => [f o; g o]) l) = (2 * length l)%nat.
Proof. induction l; cbn in *; lia. Qed.
Lemma nth_tail2 {A B} (f g : A -> B) l t : nth_error (flat_map (fun o => [f o; g o]) l ++ t) (2 * length l) = nth_error t 0 /\ nth_error (flat_map (fun o => [f o; g o]) l ++ t) (2 * length l + 1) = nth_error t 1.
Proof. split; (rewrite nth_error_app2; rewrite len_flat2; [f_equal; lia|lia]). Qed.
Lemma pad_app {A} n (z : A) l k x : nth_error l k = Some x -> nth_error (pad_to n z l) k = Some x.
Proof. intros H. unfold pad_to. rewrite nth_error_app1; [exact H|]. apply nth_error_Some. congruence. Qed.

Lemma F2_impl {A C} (P Q : A -> C -> Prop) l m : (forall a c, P a c -> Q a c) -> Forall2 P l m -> Forall2 Q l m.
Proof. induction 2; constructor; auto. Qed.
Section O.
Variable mm : mmpar. Variable cp : cpar. Variable tol : R. Variable lstsq : list (list R) -> list R -> result (nat -> R).
Variable fix_ : list vec. Variable pix : list pixel. Variable fl : orientpar. Variables h drad : R.
Notation points_ := (points mm cp tol fix_ pix fl h drad).
Notation point_ := (orient_point mm cp tol).

(** measured minus projected position *)
Lemma point_y g0 pos px py c c' o : point_ g0 h drad pos px py c = (c', Ok o) ->
  exists xp yp, img_coord pos (update_rot c) mm = Ok (xp, yp) /\
  let m := pixel_to_metric px py (imx_ cp) (imy_ cp) (pix_x_ cp) (pix_y_ cp) in
  let q := correct_brown_affine (fst m) (snd m) (c_added c) tol in
  snd o = (fst q - xp, snd q - yp).
Proof.
  unfold orient_point, sbind, sget, smod, simg, sret. cbv beta iota zeta.
  destruct (correct_brown_affine _ _ _ _) as [xc yc]. destruct (img_coord pos (update_rot c) mm) as [[xp yp]|]; [|discriminate].
  destruct (num_deriv_exterior mm h drad pos (update_rot c)) as [c1 [[xd yd]|]] eqn:EN; [|discriminate].
  destruct (img_coord pos _ mm) as [q6|]; [|discriminate]. destruct (img_coord pos _ mm) as [q16|]; [|discriminate].
  destruct (img_coord pos _ mm) as [q17|]; [|discriminate]. destruct (img_coord pos _ mm) as [q18|]; [|discriminate].
  intros E. apply pair_equal_spec in E. destruct E as [_ E]. injection E as <-. exists xp, yp. split; reflexivity.
Qed.
Definition part_b (i : nat) : bool := match nth_error pix i with Some (pnr, _) => usable (op_use fl) i pnr | None => false end.
Lemma part_iff i : part_b i = true <-> takes_part fl pix i.
Proof.
  unfold part_b. destruct (nth_error pix i) as [[pnr xy]|] eqn:N; [now apply usable_iff with (xy := xy)|].
  split; [discriminate|]. intros (xy & Q & _). congruence.
Qed.
Lemma points_obs g0 : forall idx c c' os, points_ g0 idx c = (c', Ok os) ->
  Forall2 (fun i o => exists ck c2 px py, nth_error pix i = Some (Z.of_nat i, (px, py)) /\ (ck = c \/ ck = with_glass (update_rot c) g0) /\ point_ g0 h drad (nth i fix_ vzero) px py ck = (c2, Ok o))
    (filter part_b idx) os.
Proof.
  induction idx as [|i r IH]; intros c c' os E; cbn [points] in E.
  { injection E as <- <-. constructor. }
  cbn [filter]. unfold part_b at 1. destruct (nth_error pix i) as [[pnr [px py]]|] eqn:N; [|discriminate].
  destruct (usable (op_use fl) i pnr) eqn:U; [|eapply IH; exact E].
  unfold sbind in E. destruct (point_ g0 h drad _ px py c) as [c1 [o|]] eqn:EO; [|discriminate].
  destruct (points_ g0 r c1) as [c2 [rest|]] eqn:ER; [|discriminate]. cbn in E. injection E as <- <-.
  assert (pnr = Z.of_nat i) as -> by (apply (usable_iff pix fl _ _ _ N) in U; destruct U as (xy' & N' & _); congruence).
  constructor; [exists c, c1, px, py; repeat split; auto|].
  apply orient_point_ok in EO. subst c1. apply IH in ER. eapply F2_impl; [|exact ER]. cbv beta. intros j oj (ck & cj & qx & qy & A & Bq & D).
  exists ck, cj, qx, qy. split; [exact A|]. split; [right; destruct Bq as [-> | ->]; reflexivity|exact D].
Qed.
Lemma table_ok resi : forall ts ix rows, table resi ix ts = Ok rows -> length rows = length ts /\
  forall k t, nth_error ts k = Some t -> exists a b, nth_error resi (2 * (ix + k)) = Some a /\ nth_error resi (2 * (ix + k) + 1) = Some b /\ nth_error rows k = Some (a, b, fst t).
Proof.
  induction ts as [|t r IH]; intros ix rows E; cbn [table] in E.
  { injection E as <-. split; [reflexivity|]. intros k t H. destruct k; discriminate. }
  destruct (nth_error resi (2 * ix)) as [a|] eqn:A; [|discriminate]. destruct (nth_error resi (2 * ix + 1)) as [b|] eqn:Bq; [|discriminate].
  destruct (table resi (S ix) r) as [rest|] eqn:ER; [|discriminate]. cbn in E. injection E as <-. apply IH in ER. destruct ER as (L & F). split; [cbn; now rewrite L|].
  intros k t' H. destruct k as [|k].
  - cbn in H. injection H as <-. exists a, b. rewrite Nat.add_0_r. repeat split; assumption.
  - cbn in H. destruct (F k t' H) as (a' & b' & A' & B' & R). exists a', b'. replace (ix + S k)%nat with (S ix + k)%nat by lia. repeat split; assumption.
Qed.
Lemma sorted_filter f : forall n s, StronglySorted lt (filter f (seq s n)).
Proof.
  induction n as [|n IH]; intros s; cbn; [constructor|]. destruct (f s); [|apply IH]. constructor; [apply IH|].
  apply Forall_forall. intros x Hx. apply filter_In in Hx. destruct Hx as [Hx _]. apply in_seq in Hx. lia.
Qed.
Notation full_ := (full_calibration mm cp tol lstsq fix_ pix fl h drad).
Definition frozen (b : nat -> R) : Prop := forall i, (i < 10)%nat -> nth i (inner_flags fl) 1%Z = 0%Z -> b (6 + i)%nat = 0.
Lemma freeze_frozen beta : frozen (freeze fl beta).
Proof.
  intros i L F. do 10 (destruct i as [|i]; [cbn [nth inner_flags] in F; unfold freeze; cbn [plus Nat.leb Nat.ltb andb Nat.sub nth flag_list]; now rewrite (on_0 _ F)|]). lia.
Qed.
Lemma freeze_small beta i : Rabs (beta i) <= CONVERGENCE -> Rabs (freeze fl beta i) <= CONVERGENCE.
Proof.
  intros H. unfold freeze. destruct (_ && _); [|exact H]. destruct (nth _ _ _); [exact H|]. rewrite Rabs_R0. unfold CONVERGENCE. lra.
Qed.
Lemma rowdot_ident b i : (i < 10)%nat -> rowdot b (firstn (numbers fl) (map (fun j => if (j =? 6 + i)%nat then 1 else 0) (seq 0 19))) = b (6 + i)%nat.
Proof.
  intros L. unfold numbers. destruct (_ =? 0)%Z; (do 10 (destruct i as [|i]; [cbn; ring|])); lia.
Qed.
Lemma full_rows c c' rows : full_ c = (c', Ok rows) -> exists us beta,
  StronglySorted lt us /\ (forall i, In i us <-> (i < length fix_)%nat /\ takes_part fl pix i) /\
  ((forall i, (i < length fix_)%nat -> takes_part fl pix i) -> us = seq 0 (length fix_)) /\
  (forall i, (i < numbers fl)%nat -> Rabs (beta i) <= CONVERGENCE) /\ frozen beta /\
  length rows = length pix /\
  (forall k i t, nth_error us k = Some i -> nth_error pix k = Some t -> exists ck c2 o px py,
     nth_error pix i = Some (Z.of_nat i, (px, py)) /\ point_ (c_glass c) h drad (nth i fix_ vzero) px py ck = (c2, Ok o) /\
     nth_error rows k = Some (rowdot beta (firstn (numbers fl) (fst (fst o))) - fst (snd o), rowdot beta (firstn (numbers fl) (snd (fst o))) - snd (snd o), fst t)) /\
  (forall t, nth_error pix (length us) = Some t -> nth_error rows (length us) = Some (beta 6%nat, beta 7%nat, fst t)).
Proof.
  unfold full_calibration, sbind. destruct (orient mm cp tol lstsq fix_ pix fl h drad c) as [c1 [[resi|]|]] eqn:EO; try discriminate.
  unfold slift. intros E. apply pair_equal_spec in E. destruct E as [<- ET]. apply orient_ok in EO. destruct EO as (c2 & p & EP & [(S & _ & R)|(_ & _ & [=])]).
  apply passes_last in EP. destruct EP as (c0 & EP). apply pass_ok in EP. destruct EP as (c3 & os & beta & EP & ES & _ & ->). cbn [ps_stop] in S.
  apply points_obs in EP. injection R as ->. exists (filter part_b (seq 0 (length fix_))), (freeze fl beta).
  split; [apply sorted_filter|]. split. { intros i. rewrite filter_In, in_seq, part_iff. intuition lia. }
  split. { intros A. assert (Q : forall n s, (forall i, (s <= i < s + n)%nat -> part_b i = true) -> filter part_b (seq s n) = seq s n).
    { induction n; intros s Hs; cbn; [reflexivity|]. rewrite Hs by lia. f_equal. apply IHn. intros i Hi. apply Hs. lia. }
    apply Q. intros i Hi. apply part_iff, A. lia. }
  split. { intros i L. apply freeze_small. now apply (conv_bound fl beta i). }
  split; [apply freeze_frozen|]. apply table_ok in ET. destruct ET as (LR & RT). split; [exact LR|].
  pose proof (F2_length _ _ _ EP) as LU. split.
  - intros k i t U T. destruct (RT k t T) as (a & b & A & Bq & RK). cbn [plus] in A, Bq.
    assert (exists o, nth_error os k = Some o) as (o & O).
    { destruct (nth_error os k) eqn:O; [eauto|]. apply nth_error_None in O. assert (nth_error (filter part_b (seq 0 (length fix_))) k <> None) as Hk by congruence. apply nth_error_Some in Hk. lia. }
    assert (G : forall l m k, Forall2 (fun i o => exists ck c2 px py, nth_error pix i = Some (Z.of_nat i, (px, py)) /\ (ck = c0 \/ ck = with_glass (update_rot c0) (c_glass c)) /\ point_ (c_glass c) h drad (nth i fix_ vzero) px py ck = (c2, Ok o)) l m ->
      forall i o, nth_error l k = Some i -> nth_error m k = Some o -> exists ck c2 px py, nth_error pix i = Some (Z.of_nat i, (px, py)) /\ point_ (c_glass c) h drad (nth i fix_ vzero) px py ck = (c2, Ok o)).
    { clear. intros l m k F. revert k. induction F as [|x y l m H F IH]; intros k i o A Bq; [destruct k; discriminate|]. destruct k; cbn in A, Bq; [|eauto].
      injection A as <-. injection Bq as <-. destruct H as (ck & c2 & px & py & A & _ & D). eauto 6. }
    destruct (G _ _ _ EP i o U O) as (ck & c4 & px & py & P1 & P2). exists ck, c4, o, px, py. split; [exact P1|]. split; [exact P2|]. rewrite RK. f_equal.
    unfold residuals in A, Bq. cbn [ps_beta ps_obs ps_y] in A, Bq. rewrite nth_zip in A, Bq.
    destruct (nth_flat2 (fun o => fst (fst o)) (fun o => snd (fst o)) os ident_rows k o O) as (X1 & X2).
    destruct (nth_flat2 (fun o => fst (snd o)) (fun o => snd (snd o)) os (ident_y (c_added c) c3) k o O) as (Y1 & Y2).
    unfold design_x, design_y in A, Bq. rewrite (pad_app _ _ _ _ _ X1), (pad_app _ _ _ _ _ Y1) in A. rewrite (pad_app _ _ _ _ _ X2), (pad_app _ _ _ _ _ Y2) in Bq.
    injection A as <-. injection Bq as <-. reflexivity.
  - intros t T. destruct (RT _ t T) as (a & b & A & Bq & RK). cbn [plus] in A, Bq. rewrite RK. f_equal.
    unfold residuals in A, Bq. cbn [ps_beta ps_obs ps_y] in A, Bq. rewrite nth_zip in A, Bq. rewrite LU in A, Bq. unfold design_x, design_y in A, Bq.
    assert (NT : forall (f g : obs -> list R) t, nth_error (flat_map (fun o => [f o; g o]) os ++ t) (2 * length os) = nth_error t 0 /\ nth_error (flat_map (fun o => [f o; g o]) os ++ t) (2 * length os + 1) = nth_error t 1) by (intros; apply nth_tail2).
    assert (NR : forall (f g : obs -> R) t, nth_error (flat_map (fun o => [f o; g o]) os ++ t) (2 * length os) = nth_error t 0 /\ nth_error (flat_map (fun o => [f o; g o]) os ++ t) (2 * length os + 1) = nth_error t 1) by (intros; apply nth_tail2).
    destruct (NT (fun o => fst (fst o)) (fun o => snd (fst o)) ident_rows) as (X1 & X2). destruct (NR (fun o => fst (snd o)) (fun o => snd (snd o)) (ident_y (c_added c) c3)) as (Y1 & Y2).
    rewrite (pad_app _ _ _ _ _ X1), (pad_app _ _ _ _ _ Y1) in A. rewrite (pad_app _ _ _ _ _ X2), (pad_app _ _ _ _ _ Y2) in Bq.
    injection A as <-. injection Bq as <-. pose proof (rowdot_ident (freeze fl beta) 0 ltac:(lia)) as R0. pose proof (rowdot_ident (freeze fl beta) 1 ltac:(lia)) as R1.
    cbn [plus] in R0, R1.
    match goal with |- (?r - _, ?q - _, _) = _ => replace r with (freeze fl beta 6) by (symmetry; exact R0); replace q with (freeze fl beta 7) by (symmetry; exact R1) end. f_equal. f_equal; ring.
Qed.
End O.

(** ---- raw_orient: what never changes, whatever happens ---- *)
Definition inside (c c' : calib) : Prop := c_int c' = c_int c /\ c_glass c' = c_glass c /\ c_added c' = c_added c /\ c_lut c' = c_lut c.
Definition preserves {A} (m : St A) : Prop := forall c, inside c (fst (m c)).
Lemma pr_bind {A B} (m : St A) (k : A -> St B) : preserves m -> (forall a, preserves (k a)) -> preserves (sbind m k).
Proof.
  intros H K c. unfold sbind. pose proof (H c) as Hc. destruct (m c) as [c1 [a|e]]; [|exact Hc]. pose proof (K a c1) as (A1 & A2 & A3 & A4). destruct Hc as (B1 & B2 & B3 & B4).
  cbn [fst] in *. repeat split; congruence.
Qed.
Lemma pr_ret {A} (a : A) : preserves (sret a). Proof. intros c. repeat split. Qed.
Lemma pr_raise {A} e : preserves (@sraise A e). Proof. intros c. repeat split. Qed.
Lemma pr_lift {A} (r : result A) : preserves (slift r). Proof. intros c. repeat split. Qed.
Lemma pr_mod f : (forall c, inside c (f c)) -> preserves (smod f). Proof. intros H c. apply H. Qed.
Lemma pr_rot : preserves (smod update_rot). Proof. intros c. repeat split. Qed.
Lemma pr_bump pd s : preserves (smod (bump pd s)).
Proof. intros c. unfold smod, bump, with_ext. repeat split. Qed.
Section R.
Variable mm : mmpar. Variable cp : cpar. Variable lstsq : list (list R) -> list R -> result (nat -> R).
Variable fix_ : list vec. Variable pix : list pixel. Variables h drad : R.
Lemma pr_img pos : preserves (simg mm pos). Proof. intros c. repeat split. Qed.
Lemma pr_deriv pos xs ys : forall pds, preserves (deriv_loop mm h drad pos xs ys pds).
Proof.
  induction pds as [|pd r IH]; cbn [deriv_loop]; [apply pr_ret|].
  apply pr_bind; [apply pr_bump|intros _]. apply pr_bind; [|intros _]. { destruct (2 <? pd)%nat; [apply pr_rot|intros c; repeat split]. }
  apply pr_bind; [apply pr_img|intros xy]. apply pr_bind; [apply pr_bump|intros _]. apply pr_bind; [exact IH|intros rest]. apply pr_ret.
Qed.
Lemma pr_num_deriv pos : preserves (num_deriv_exterior mm h drad pos).
Proof.
  unfold num_deriv_exterior. apply pr_bind; [apply pr_rot|intros _]. apply pr_bind; [apply pr_img|intros xy]. apply pr_bind; [apply pr_deriv|intros l].
  apply pr_bind; [apply pr_rot|intros _]. apply pr_ret.
Qed.
Lemma pr_raw_points : forall idx, preserves (raw_points mm cp fix_ pix h drad idx).
Proof.
  induction idx as [|i r IH]; cbn [raw_points]; [apply pr_ret|]. destruct (nth_error pix i) as [[pnr [px py]]|]; [|apply pr_raise].
  destruct (pixel_to_metric _ _ _ _ _ _) as [xc yc]. apply pr_bind; [apply pr_rot|intros _]. apply pr_bind; [apply pr_img|intros p]. apply pr_bind; [apply pr_num_deriv|intros der].
  apply pr_bind; [exact IH|intros rest]. apply pr_ret.
Qed.
Lemma pr_raw_pass : preserves (raw_pass mm cp lstsq fix_ pix h drad).
Proof.
  unfold raw_pass. apply pr_bind; [apply pr_raw_points|intros os]. apply pr_bind; [apply pr_lift|intros b]. apply pr_bind; [|intros _; apply pr_ret].
  intros c. repeat split.
Qed.
Lemma pr_raw_passes : forall k, preserves (raw_passes mm cp lstsq fix_ pix h drad k).
Proof.
  induction k; cbn [raw_passes]; (apply pr_bind; [apply pr_raw_pass|intros s]); destruct s; try apply pr_ret; assumption.
Qed.
Lemma raw_orient_inside c : let c' := fst (raw_orient mm cp lstsq fix_ pix h drad c) in
  c_int c' = c_int c /\ c_glass c' = c_glass c /\ c_lut c' = c_lut c /\ c_added c' = default_added.
Proof.
  unfold raw_orient. unfold sbind at 1, smod at 1. cbv beta iota.
  assert (P : preserves (sbind (raw_passes mm cp lstsq fix_ pix h drad 19) (fun s : bool => if s then sbind (smod update_rot) (fun _ => sret true) else sret false))).
  { apply pr_bind; [apply pr_raw_passes|]. intros s. destruct s; [|apply pr_ret]. apply pr_bind; [apply pr_rot|intros _; apply pr_ret]. }
  destruct (P (with_added c default_added)) as (A & Bq & C & D). cbv zeta. repeat split; assumption.
Qed.
(** on normal return the loop over the points leaves the parameters alone *)
Lemma raw_points_ext : forall idx c c' os, raw_points mm cp fix_ pix h drad idx c = (c', Ok os) -> ext_params c' = ext_params c.
Proof.
  induction idx as [|i r IH]; intros c c' os E; cbn [raw_points] in E; [injection E as <- <-; reflexivity|].
  destruct (nth_error pix i) as [[pnr [px py]]|]; [|discriminate]. destruct (pixel_to_metric _ _ _ _ _ _) as [xc yc].
  unfold sbind, smod, simg in E. destruct (img_coord _ (update_rot c) mm) as [p|]; [|discriminate].
  destruct (num_deriv_exterior mm h drad _ (update_rot c)) as [c1 [[xd yd]|]] eqn:EN; [|discriminate]. apply num_deriv_ok in EN. destruct EN as (-> & _).
  destruct (raw_points mm cp fix_ pix h drad r _) as [c2 [rest|]] eqn:ER; [|discriminate]. cbn in E. apply pair_equal_spec in E. destruct E as [<- _]. apply IH in ER. rewrite ER. reflexivity.
Qed.
Lemma raw_pass_ok c c' s : raw_pass mm cp lstsq fix_ pix h drad c = (c', Ok s) ->
  exists b, (exists X y, lstsq X y = Ok b) /\ s = raw_converged b /\ all_steps [b] c c'.
Proof.
  unfold raw_pass, sbind, slift, smod, sret. destruct (raw_points mm cp fix_ pix h drad _ c) as [c1 [os|]] eqn:EP; [|discriminate].
  destruct (lstsq _ _) as [b|] eqn:EL; [|discriminate]. intros E. apply pair_equal_spec in E. destruct E as [<- E]. injection E as <-. exists b. split; [eauto|]. split; [reflexivity|].
  apply raw_points_ext in EP. intros i L. rewrite <- EP. unfold total. do 6 (destruct i as [|i]; [cbn; ring|]). lia.
Qed.
Lemma raw_passes_ok : forall k c c' s, raw_passes mm cp lstsq fix_ pix h drad k c = (c', Ok s) ->
  exists bs b, all_steps (bs ++ [b]) c c' /\ (length bs <= k)%nat /\ Forall (fun b => exists X y, lstsq X y = Ok b) (bs ++ [b]) /\
  Forall (fun b => raw_converged b = false) bs /\ raw_converged b = s /\ (s = false -> length bs = k).
Proof.
  assert (EQ : forall k c, raw_passes mm cp lstsq fix_ pix h drad k c = match raw_pass mm cp lstsq fix_ pix h drad c with
    | (c1, Ok s) => if s : bool then (c1, Ok true) else match k with O => (c1, Ok false) | S k' => raw_passes mm cp lstsq fix_ pix h drad k' c1 end | (c1, Exn e) => (c1, Exn e) end).
  { intros k c. destruct k; cbn [raw_passes]; unfold sbind, sret; destruct (raw_pass mm cp lstsq fix_ pix h drad c) as [c1 [[|]|]]; reflexivity. }
  induction k as [|k IH]; intros c c' s E; rewrite EQ in E; destruct (raw_pass mm cp lstsq fix_ pix h drad c) as [c1 [s1|]] eqn:EP; try discriminate; apply raw_pass_ok in EP; destruct EP as (b & L & S & A); destruct s1.
  - injection E as <- <-. exists [], b. cbn. repeat split; auto.
  - injection E as <- <-. exists [], b. cbn. repeat split; auto.
  - injection E as <- <-. exists [], b. cbn. repeat split; auto; [lia|discriminate].
  - apply IH in E. destruct E as (bs & b' & A' & LE & F & F' & C & Z). exists (b :: bs), b'. cbn [app length]. split; [|split; [lia|split; [apply Forall_cons; assumption|split; [apply Forall_cons; [symmetry; exact S|assumption]|split; [exact C|intros Q; rewrite (Z Q); reflexivity]]]]].
    intros i Li. rewrite (A' i Li), (A i Li). unfold total. cbn [map fold_right]. ring.
Qed.
Lemma raw_orient_ok c c' s : raw_orient mm cp lstsq fix_ pix h drad c = (c', Ok s) ->
  exists bs b, all_steps (bs ++ [b]) c c' /\ (length bs <= 19)%nat /\ Forall (fun b => exists X y, lstsq X y = Ok b) (bs ++ [b]) /\
  Forall (fun b => raw_converged b = false) bs /\ raw_converged b = s /\ (s = false -> length bs = 19%nat) /\ (s = true -> consistent (c_ext c')).
Proof.
  unfold raw_orient, sbind, smod, sret. destruct (raw_passes mm cp lstsq fix_ pix h drad 19 _) as [c1 [s1|]] eqn:EP; [|discriminate].
  apply raw_passes_ok in EP. destruct EP as (bs & b & A & LE & F & F' & C & Z). intros E. exists bs, b.
  assert (G : ext_params c' = ext_params c1 /\ s = s1 /\ (s = true -> consistent (c_ext c'))).
  { destruct s1; apply pair_equal_spec in E; destruct E as [<- E]; injection E as <-; repeat split; [|discriminate].
    intros _. unfold consistent, update_rot, with_ext, rotation_matrix. cbn [c_ext dm omega phi kappa]. apply rot_product. }
  destruct G as (X & -> & K). repeat split; auto. unfold all_steps. rewrite X. exact A.
Qed.
End R.
