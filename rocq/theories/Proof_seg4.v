(** Segmentation: the statements of Prop_seg. *)
From Coq Require Import Reals.
From Verif Require Import Base Lib F64 F64R Model_corr Model_seg Spec_seg Proof_seg Proof_seg2 Proof_seg3.
Local Open Scope Z_scope.

Lemma kernel_ok img L cap : range_ok img L -> 0 <= l_thres L -> blobs_below img L (Z.of_nat cap) ->
  exists Rs ts, fast_targ_rec img L cap = Ok ts /\
    segmentation img L Rs /\ reported img L Rs ts /\ NoDup (concat Rs) /\
    (forall q, In q (concat Rs) -> in_range L q /\ l_thres L < grey img q) /\
    (forall p, in_range L p -> l_thres L < grey img p -> (forall q, around p q -> grey img q <= grey img p) -> In p (concat Rs)) /\
    scanned img L (raster L) Rs.
Proof. intros. now apply fast_targ_rec_ok. Qed.
Lemma max_targets : Z.of_nat (Z.to_nat MAX_TARGETS) = MAX_TARGETS.
Proof. rewrite Z2Nat.id; [reflexivity|]. unfold MAX_TARGETS. lia. Qed.
Lemma targ_rec_ok img tp xmin xmax ymin ymax imx imy num_cam thres :
  imx <= im_w img -> imy <= im_h img -> pyget (tpar_gvthresh tp) num_cam = Ok thres -> 0 <= thres ->
  let L := clamped tp thres xmin xmax ymin ymax imx imy in
  blobs_below img L MAX_TARGETS ->
  exists Rs ts, targ_rec img tp xmin xmax ymin ymax imx imy num_cam = Ok ts /\
    segmentation img L Rs /\ reported img L Rs ts /\ NoDup (concat Rs) /\
    (forall q, In q (concat Rs) -> in_range L q /\ thres < grey img q) /\
    (forall p, in_range L p -> thres < grey img p -> (forall q, around p q -> grey img q <= grey img p) -> In p (concat Rs)) /\
    scanned img L (raster L) Rs.
Proof.
  intros H1 H2 H3 H4 L B. rewrite (targ_rec_clamped _ _ _ _ _ _ _ _ _ _ H3).
  apply kernel_ok; [now apply clamped_range|exact H4|now rewrite max_targets].
Qed.
Lemma targ_rec_total img tp xmin xmax ymin ymax imx imy num_cam thres :
  imx <= im_w img -> imy <= im_h img -> pyget (tpar_gvthresh tp) num_cam = Ok thres -> 0 <= thres ->
  blobs_below img (clamped tp thres xmin xmax ymin ymax imx imy) MAX_TARGETS ->
  exists ts, targ_rec img tp xmin xmax ymin ymax imx imy num_cam = Ok ts.
Proof. intros H1 H2 H3 H4 B. destruct (targ_rec_ok _ _ xmin xmax ymin ymax imx imy _ _ H1 H2 H3 H4 B) as (Rs & ts & E & _). eauto. Qed.
Lemma kernel_any_image img L : range_ok img L -> 0 <= l_thres L -> 0 <= im_h img -> 0 <= im_w img ->
  exists ts, fast_targ_rec img L (Z.to_nat (im_h img * im_w img) + 1) = Ok ts.
Proof.
  intros RO TH H W. destruct (kernel_ok img L (Z.to_nat (im_h img * im_w img) + 1) RO TH) as (Rs & ts & E & _); [|eauto].
  apply small_range. rewrite Nat2Z.inj_add, Z2Nat.id by nia. destruct RO as (R1 & R2 & R3 & R4). unfold area.
  assert (Z.max 0 (l_xmax L - l_xmin L) <= im_w img) by lia. assert (Z.max 0 (l_ymax L - l_ymin L) <= im_h img) by lia.
  assert (0 <= Z.max 0 (l_xmax L - l_xmin L)) by lia. assert (0 <= Z.max 0 (l_ymax L - l_ymin L)) by lia. nia.
Qed.

Lemma reported_numbers m L Rs ts : reported m L Rs ts -> forall k t, nth_error ts k = Some t -> t_pnr t = Z.of_nat k /\ t_tnr t = -1.
Proof.
  induction 1 as [|Rs ts R t0 H IH HA HD|Rs ts R H IH HA]; intros k t E; [destruct k; discriminate| |now apply IH].
  destruct (Nat.lt_ge_cases k (length ts)) as [K|K]; [rewrite nth_error_app1 in E by lia; now apply IH|].
  rewrite nth_error_app2 in E by lia. destruct (k - length ts)%nat as [|n] eqn:EK; [|destruct n; discriminate].
  injection E as <-. destruct HD as (D1 & D2 & _). replace k with (length ts) by lia. auto.
Qed.
Lemma reported_iff m L Rs ts : reported m L Rs ts ->
  (forall t, In t ts -> exists R k, In R Rs /\ accepted m L R /\ describes m L R k t) /\
  (forall R, In R Rs -> accepted m L R -> exists t k, In t ts /\ describes m L R k t).
Proof.
  induction 1 as [|Rs ts R t0 H (IH1 & IH2) HA HD|Rs ts R H (IH1 & IH2) HA].
  - split; intros ? [].
  - split.
    + intros t [Ht|[<-|[]]]%in_app_or.
      * destruct (IH1 t Ht) as (R' & k & A & B & C). exists R', k. split; [apply in_or_app; now left|auto].
      * exists R, (length ts). split; [apply in_or_app; right; now left|auto].
    + intros R' [Hr|[<-|[]]]%in_app_or A.
      * destruct (IH2 R' Hr A) as (t & k & B & C). exists t, k. split; [apply in_or_app; now left|auto].
      * exists t0, (length ts). split; [apply in_or_app; right; now left|auto].
  - split.
    + intros t Ht. destruct (IH1 t Ht) as (R' & k & A & B & C). exists R', k. split; [apply in_or_app; now left|auto].
    + intros R' [Hr|[<-|[]]]%in_app_or A; [now apply IH2|contradiction].
Qed.

Lemma NoDup_concat_in {A} (l : list A) : forall Rs, NoDup (concat Rs) -> In l Rs -> NoDup l.
Proof.
  induction Rs as [|a Rs IH]; intros ND H; [destruct H|]. cbn [concat] in ND. destruct H as [->|H].
  - clear IH. revert ND. generalize (concat Rs). induction l as [|x l IH]; intros c ND; [constructor|]. inversion ND as [|? ? N1 N2]; subst. constructor.
    + intros Hx. apply N1. apply in_or_app. now left.
    + eapply IH; eauto.
  - apply IH; auto. clear -ND. induction a; [auto|]. inversion ND; auto.
Qed.
Lemma targ_rec_limits img tp xmin xmax ymin ymax imx imy num_cam thres G ts :
  imx <= im_w img -> imy <= im_h img -> pyget (tpar_gvthresh tp) num_cam = Ok thres -> 0 <= thres ->
  let L := clamped tp thres xmin xmax ymin ymax imx imy in
  blobs_below img L MAX_TARGETS -> (forall q, in_range L q -> grey img q <= G) ->
  Z.max (im_w img) (im_h img) * (area L * G) <= 2 ^ 51 ->
  targ_rec img tp xmin xmax ymin ymax imx imy num_cam = Ok ts ->
  forall t, In t ts ->
    tpar_nnmin tp <= t_n t <= tpar_nnmax tp /\ tpar_nxmin tp <= t_nx t <= tpar_nxmax tp /\
    tpar_nymin tp <= t_ny t <= tpar_nymax tp /\ tpar_sumg_min tp < t_sumg t + t_n t * thres /\ 0 < t_sumg t /\
    exists R lx hx ly hy, (forall q, In q R -> in_range L q) /\ Z.of_nat (length R) = t_n t /\
      span (map fst R) lx hx /\ t_nx t = hx - lx + 1 /\ span (map snd R) ly hy /\ t_ny t = hy - ly + 1 /\
      fin (t_x t) /\ (IZR lx + / 2 <= val (t_x t) <= IZR hx + / 2)%R /\
      fin (t_y t) /\ (IZR ly + / 2 <= val (t_y t) <= IZR hy + / 2)%R.
Proof.
  intros H1 H2 H3 H4 L B HG HB E t Ht.
  destruct (targ_rec_ok _ _ xmin xmax ymin ymax imx imy _ _ H1 H2 H3 H4 B) as (Rs & ts' & E' & SG & RP & ND & IR & _).
  rewrite E in E'. injection E' as <-. destruct (proj1 (reported_iff _ _ _ _ RP) t Ht) as (R & k & HR & HA & HD).
  fold L in HA, HD, IR, SG.
  assert (RI : forall q, In q R -> in_range L q /\ l_thres L < grey img q <= G).
  { intros q Hq. destruct (IR q) as (I1 & I2); [apply in_concat; eauto|]. split; auto. }
  assert (NE : R <> []).
  { apply in_split in HR as (Rs1 & Rs2 & EQ). destruct (SG Rs1 R Rs2 EQ) as (_ & s & _ & HH). intros ->. apply (HH s). constructor. }
  destruct (centroid_in_box img L R k t G (clamped_range img tp thres xmin xmax ymin ymax imx imy H1 H2) H4 NE (NoDup_concat_in _ _ ND HR) RI HB HD)
    as ((lx & hx & SX & FX & VX) & (ly & hy & SY & FY & VY) & SP).
  destruct HD as (_ & _ & DN & (a1 & a2 & A1 & A2) & (b1 & b2 & B1 & B2) & DS & _).
  destruct HA as (AN & (c1 & c2 & C1 & C2) & (d1 & d2 & D1 & D2) & AS).
  destruct (span_unique _ _ _ _ _ SX A1) as (<- & <-). destruct (span_unique _ _ _ _ _ SX C1) as (<- & <-).
  destruct (span_unique _ _ _ _ _ SY B1) as (<- & <-). destruct (span_unique _ _ _ _ _ SY D1) as (<- & <-).
  cbn in C2, D2, AN, AS. rewrite <- DN in AN. rewrite <- A2 in C2. rewrite <- B2 in D2.
  split; [lia|]. split; [lia|]. split; [lia|]. split.
  { rewrite DS, excess_sum, DN. change (l_thres L) with thres. lia. }
  split; [exact SP|]. exists R, lx, hx, ly, hy. split; [intros q Hq; now apply RI|]. auto 20.
Qed.

Definition dot : image := mk_image 4 4 (fun y x => if (y =? 2) && (x =? 2) then 20 else 0).
Definition dot_tp : targ_par := mk_targ_par [9] 10 1 100 1 10 1 10 15.
Lemma sumg_refuted : exists img tp, exists t, targ_rec img tp 0 4 0 4 4 4 0 = Ok [t] /\ t_sumg t <= tpar_sumg_min tp.
Proof. exists dot, dot_tp. eexists. split; [vm_compute; reflexivity|]. vm_compute. congruence. Qed.
Lemma too_large_refuted : exists img tp, im_w img = 4 /\ targ_rec img tp 0 5 0 4 5 4 0 = Exn IndexError.
Proof. exists (mk_image 4 4 (fun _ _ => 20)), dot_tp. split; [reflexivity|]. vm_compute. reflexivity. Qed.

(** ---- endless growth with a negative threshold ---- *)
Definition dark : image := mk_image 3 4 (fun _ _ => 0).
Definition neg_limits : limits := mk_limits (-1) 10 1 100 1 10 1 10 0 1 3 1 2.
Definition zero_img (m : image) : Prop := im_h m = 3 /\ im_w m = 4 /\ forall y x, im_px m y x = 0.
Lemma visit_out gv st q : (fst q < 1 \/ 3 <= fst q \/ snd q < 1 \/ 2 <= snd q) -> -1 <= fst q <= 3 -> -1 <= snd q <= 2 ->
  zero_img (g_img0 st) -> visit dark neg_limits gv st q = Ok st.
Proof.
  destruct q as [x y]. intros H B1 B2 (Z1 & Z2 & Z3). cbn [fst snd] in *. unfold visit. cbn [l_xmax l_ymax neg_limits l_thres l_xmin l_ymin l_disco].
  destruct ((x >=? 3) || (y >=? 2) || (x <? 0) || (y <? 0)) eqn:E; [reflexivity|].
  apply orb_false_elim in E as (E & E4). apply orb_false_elim in E as (E & E3). apply orb_false_elim in E as (E1 & E2).
  rewrite Z.geb_leb in E1, E2. apply Z.leb_gt in E1, E2. apply Z.ltb_ge in E3, E4.
  rewrite iget_in by lia. cbn [bind]. rewrite Z3.
  cbn [andM bind]. change (0 >? -1) with true. cbn [andM bind]. rewrite !Z.gtb_ltb.
  change (1 - 1) with 0. change (3 + 1) with 4. change (2 + 1) with 3.
  destruct (Z.ltb_spec 0 x); [|reflexivity]. destruct (Z.ltb_spec x 4); [|reflexivity]. destruct (Z.ltb_spec 0 y); [|reflexivity]. lia.
Qed.
Lemma visit_other st x a rest : (x = 1 \/ x = 2) -> zero_img (g_img0 st) -> g_wait st = a :: (0, 0) :: rest -> g_nwait st = 1 ->
  exists st', visit dark neg_limits 0 st (x, 1) = Ok st' /\ zero_img (g_img0 st') /\ g_wait st' = a :: (x, 1) :: rest /\ g_nwait st' = 2.
Proof.
  intros HX (Z1 & Z2 & Z3) W N. unfold visit. cbn [l_xmax l_ymax neg_limits l_thres l_xmin l_ymin l_disco].
  replace ((x >=? 3) || (1 >=? 2) || (x <? 0) || (1 <? 0)) with false by (destruct HX as [->| ->]; reflexivity).
  rewrite iget_in by lia. cbn [bind]. rewrite Z3.
  replace (andM _) with (Ok true : result bool) by (destruct HX as [->| ->]; vm_compute; reflexivity). cbn [bind].
  rewrite iset_in by lia. cbn [bind]. rewrite W, N.
  change (pyset (a :: (0, 0) :: rest) 1 (x, 1)) with (pyset ([a] ++ (0, 0) :: rest) (Z.of_nat (length [a])) (x, 1)).
  rewrite (pyset_in_range _ _ _) by (cbn [length app]; lia).
  cbn [bind]. eexists. split; [reflexivity|]. cbn [g_img0 g_wait g_nwait]. split.
  - split; [exact Z1|]. split; [exact Z2|]. intros y' x'. cbn. destruct (_ && _); auto.
  - split; reflexivity.
Qed.
Lemma dark_round st x rest : (x = 1 \/ x = 2) -> zero_img (g_img0 st) -> g_wait st = (x, 1) :: (0, 0) :: rest -> g_nwait st = 1 ->
  exists st', round dark neg_limits st = Ok st' /\ zero_img (g_img0 st') /\ g_wait st' = (3 - x, 1) :: (0, 0) :: rest /\ g_nwait st' = 1.
Proof.
  intros HX Z W N. unfold round. rewrite W. cbn [pyget bind]. change (pyget ((x, 1) :: (0, 0) :: rest) 0) with (Ok (x, 1)). cbn [bind].
  rewrite iget_in by (cbn; lia). cbn [bind]. change (im_px dark 1 x) with 0.
  assert (X : exists st', foldM (visit dark neg_limits 0) [(x - 1, 1); (x + 1, 1); (x, 1 - 1); (x, 1 + 1)] st = Ok st' /\
     zero_img (g_img0 st') /\ g_wait st' = (x, 1) :: (3 - x, 1) :: rest /\ g_nwait st' = 2).
  { cbn [foldM]. destruct HX as [->| ->].
    - rewrite visit_out; [|cbn; lia..|assumption]. cbn [bind]. destruct (visit_other st (1 + 1) (1, 1) rest) as (s1 & E & Z' & W' & N'); auto.
      rewrite E. cbn [bind]. rewrite visit_out; [|cbn; lia..|assumption]. cbn [bind]. rewrite visit_out; [|cbn; lia..|assumption]. cbn [bind].
      eauto.
    - destruct (visit_other st (2 - 1) (2, 1) rest) as (s1 & E & Z' & W' & N'); auto.
      rewrite E. cbn [bind]. rewrite visit_out; [|cbn; lia..|assumption]. cbn [bind]. rewrite visit_out; [|cbn; lia..|assumption]. cbn [bind].
      rewrite visit_out; [|cbn; lia..|assumption]. cbn [bind]. eauto. }
  destruct X as (s1 & E & Z' & W' & N'). rewrite E. cbn [bind]. rewrite W', N'.
  pose proof (shift_ok (x, 1) [(3 - x, 1)] rest) as SH. cbn [length app] in SH. change (Z.of_nat 1) with (2 - 1) in SH. rewrite SH. cbn [bind].
  eexists. split; [reflexivity|]. cbn [g_img0 g_wait g_nwait]. auto.
Qed.
Lemma dark_rounds fuel : forall st x rest, (x = 1 \/ x = 2) -> zero_img (g_img0 st) -> g_wait st = (x, 1) :: (0, 0) :: rest -> g_nwait st = 1 ->
  rounds dark neg_limits fuel st = Exn OutOfFuel.
Proof.
  induction fuel as [|f IH]; intros st x rest HX Z W N; cbn [rounds]; rewrite N; cbn [Z.gtb Z.compare]; [reflexivity|].
  destruct (dark_round st x rest HX Z W N) as (s1 & E & Z' & W' & N'). rewrite E. cbn [bind]. apply (IH s1 (3 - x) rest); auto.
  destruct HX as [->| ->]; lia.
Qed.
Lemma negative_threshold cap fuel : (2 <= cap)%nat ->
  rounds dark neg_limits fuel (mk_grow dark 0 1 1 1 1 1 1 1 ((1, 1) :: repeat (0, 0) (cap - 1)) 1) = Exn OutOfFuel.
Proof.
  intros H. destruct cap as [|[|c]]; [lia|lia|]. apply (dark_rounds fuel _ 1 (repeat (0, 0) c)); auto.
  repeat split; reflexivity.
Qed.
