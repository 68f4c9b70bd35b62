From Verif Require Import Base Lib F64 Model_corr Model_misc Spec_misc Proof_misc.
Local Open Scope Z_scope.

Section Sortgrid.
Variable project : Z -> result (f64 * f64).
Variables (eps imx imy : f64).
Variable pix0 : list target.
Notation Asg := (assigned0 project eps imx imy pix0).
Definition anon (l : list target) := map (fun t => set_pnr t 0) l.
(** detections after points 0 .. n-1 *)
Definition renum (n : Z) (j : nat) (t t' : target) : Prop :=
  (exists i, last_assigned0 project eps imx imy pix0 n i j /\ t' = set_pnr t i) \/
  ((forall i, 0 <= i < n -> ~ Asg i j) /\ t' = t).
Definition SG (nfix n : Z) (st : list target * list entry) : Prop :=
  let '(pix, sorted) := st in
  length pix = length pix0 /\ (forall j t, nth_error pix0 j = Some t -> exists t', nth_error pix j = Some t' /\ renum n j t t') /\
  length sorted = Z.to_nat nfix /\
  (forall i, 0 <= i < nfix -> exists e, nth_error sorted (Z.to_nat i) = Some e /\
     ((i < n /\ exists j, Asg i j /\ e = Shared (Z.of_nat j)) \/ ((i < n -> forall j, ~ Asg i j) /\ e = Fresh))).
Lemma SG_anon nfix n pix sorted : SG nfix n (pix, sorted) -> anon pix = anon pix0.
Proof.
  intros (L & H & _). apply nth_error_ext. intros k. unfold anon. rewrite !nth_error_map.
  destruct (nth_error pix0 k) as [t|] eqn:E.
  - destruct (H k t E) as (t' & E' & [(i & _ & ->)|(_ & ->)]); rewrite E'; reflexivity.
  - apply nth_error_None in E. destruct (nth_error pix k) as [t|] eqn:E2; [|reflexivity].
    exfalso. assert (k < length pix)%nat by (apply nth_error_Some; congruence). lia.
Qed.
Lemma asg_unique i j k : Asg i j -> Asg i k -> j = k.
Proof.
  intros (p & P1 & P2 & P3) (q & Q1 & Q2 & Q3). rewrite P1 in Q1. apply f_equal with (f := fun r => match r with Ok a => a | _ => p end) in Q1. subst q.
  eapply nearest_unique; eauto.
Qed.
Lemma renum_skip n j t t' : 0 <= n -> ~ Asg n j -> renum n j t t' -> renum (n + 1) j t t'.
Proof.
  intros N NA [(i & (I1 & I2 & I3) & ->)|(H & ->)].
  - left. exists i. split; auto. split; [lia|]. split; auto. intros i' Hi'. destruct (Z.eq_dec i' n) as [->|]; auto. apply I3. lia.
  - right. split; auto. intros i Hi. destruct (Z.eq_dec i n) as [->|]; auto. apply H. lia.
Qed.
Lemma sort_one_ok nfix n st : 0 <= n < nfix -> (exists p, project n = Ok p) -> SG nfix n st ->
  exists st', sort_one project eps imx imy st n = Ok st' /\ SG nfix (n + 1) st'.
Proof.
  intros HN (p & EP) HS. destruct st as [pix sorted]. pose proof (SG_anon _ _ _ _ HS) as AN.
  destruct HS as (L & HP & LS & HE).
  assert (SKIP : (forall j, ~ Asg n j) -> SG nfix (n + 1) (pix, sorted)).
  { intros NA. split; auto. split; [|split; auto].
    - intros j t E. destruct (HP j t E) as (t' & E' & R). exists t'. split; auto. apply renum_skip; auto. lia.
    - intros i Hi. destruct (HE i Hi) as (e & Ee & [(I & j & A & ->)|(NJ & ->)]); eexists; (split; [exact Ee|]).
      + left. split; [lia|]. eauto.
      + right. split; auto. intros Hn j. destruct (Z.eq_dec i n) as [->|]; auto. apply NJ. lia. }
  unfold sort_one. rewrite EP. cbn [bind].
  destruct (on_sensor eps imx imy p) eqn:OS.
  2:{ eexists. split; [reflexivity|]. apply SKIP. intros j (q & Q1 & Q2 & _). rewrite EP in Q1.
      assert (q = p) by congruence. subst q. congruence. }
  destruct (nearest_neighbour_ok (fst p) (snd p) eps pix) as [(E & NN)|(j & E & NJ)]; rewrite E.
  - unfold PT_UNUSED. rewrite Z.eqb_refl. eexists. split; [reflexivity|]. apply SKIP.
    intros j (q & Q1 & Q2 & Q3). rewrite EP in Q1. assert (q = p) by congruence. subst q.
    apply (nearest_excl pix (fst p) (snd p) eps j NN). apply (nearest_same pix0); auto.
  - destruct (Z.eqb_spec (Z.of_nat j) (-999)); [lia|].
    assert (AJ : Asg n j) by (exists p; split; auto; split; auto; apply (nearest_same pix); auto).
    pose proof NJ as (t' & T' & _).
    assert (JL : (j < length pix)%nat) by (apply nth_error_Some; congruence).
    rewrite (pyget_nonneg _ _ t') by (try lia; now rewrite Nat2Z.id). cbn [bind].
    rewrite !pyset_in_range by lia. cbn [bind]. rewrite Nat2Z.id.
    eexists. split; [reflexivity|]. split; [now rewrite upd_length|]. split; [|split; [now rewrite upd_length|]].
    + intros k t Ek. destruct (HP k t Ek) as (u & Eu & R). destruct (Nat.eq_dec k j) as [->|NE].
      * rewrite nth_error_upd_eq by auto. eexists. split; [reflexivity|]. left. exists n. split.
        -- split; [lia|]. split; auto. intros i' Hi'. lia.
        -- assert (u = t') by congruence. subst u. destruct R as [(i & _ & ->)|(_ & ->)]; reflexivity.
      * rewrite nth_error_upd_neq by auto. exists u. split; auto. apply renum_skip; auto; [lia|]. intros A. apply NE. eapply asg_unique; eauto.
    + intros i Hi. destruct (Z.eq_dec i n) as [->|NE].
      * rewrite nth_error_upd_eq by lia. eexists. split; [reflexivity|]. left. split; [lia|]. eauto.
      * rewrite nth_error_upd_neq by lia. destruct (HE i Hi) as (e & Ee & [(I & k & A & ->)|(NJ' & ->)]); eexists; (split; [exact Ee|]).
        -- left. split; [lia|]. eauto.
        -- right. split; auto. intros Hn. apply NJ'. lia.
Qed.
Lemma deref_all pix l : (forall e, In e l -> e = Fresh \/ exists j, e = Shared (Z.of_nat j) /\ (j < length pix)%nat) -> forall acc,
  exists r, foldM (fun l e => do t <- deref pix e; Ok (l ++ [t])) l acc = Ok (acc ++ r) /\ length r = length l /\
    forall k e, nth_error l k = Some e -> exists t, nth_error r k = Some t /\
      match e with Fresh => t = new_target | Shared j => nth_error pix (Z.to_nat j) = Some t end.
Proof.
  induction l as [|e l IH]; intros H acc; cbn [foldM].
  - exists []. rewrite app_nil_r. split; auto. split; auto. intros [|k] e; discriminate.
  - assert (D : exists t, deref pix e = Ok t /\ match e with Fresh => t = new_target | Shared j => nth_error pix (Z.to_nat j) = Some t end).
    { destruct (H e (or_introl eq_refl)) as [->|(j & -> & J)]; [eexists; split; reflexivity|]. cbn [deref]. rewrite Nat2Z.id.
      destruct (nth_error pix j) as [t|] eqn:E; [|apply nth_error_None in E; lia]. exists t. split; auto. apply pyget_nonneg; [lia|now rewrite Nat2Z.id]. }
    destruct D as (t & ED & HD). rewrite ED. cbn [bind]. destruct (IH (fun e' H' => H e' (or_intror H')) (acc ++ [t])) as (r & E & LR & HR).
    exists (t :: r). rewrite E, <- app_assoc. split; auto. split; [cbn [length]; lia|]. intros [|k] e' Ek; cbn [nth_error] in *; [|now apply HR].
    injection Ek as <-. eauto.
Qed.
Theorem sortgrid_ok nfix : 0 <= nfix -> (forall i, 0 <= i < nfix -> exists p, project i = Ok p) ->
  exists sorted pix, sortgrid project eps imx imy nfix pix0 = Ok (sorted, pix) /\
    length sorted = Z.to_nat nfix /\ length pix = length pix0 /\
    (forall i, 0 <= i < nfix ->
       (exists j t, Asg i j /\ nth_error pix j = Some t /\ nth_error sorted (Z.to_nat i) = Some t) \/
       ((forall j, ~ Asg i j) /\ nth_error sorted (Z.to_nat i) = Some new_target)) /\
    (forall j t, nth_error pix0 j = Some t ->
       (exists i, last_assigned0 project eps imx imy pix0 nfix i j /\ nth_error pix j = Some (set_pnr t i)) \/
       ((forall i, 0 <= i < nfix -> ~ Asg i j) /\ nth_error pix j = Some t)).
Proof.
  intros HN HP. unfold sortgrid.
  destruct (loop_total (SG nfix) (sort_one project eps imx imy) 0 nfix (pix0, repeat Fresh (Z.to_nat nfix)) HN) as ([pix sorted] & E & HS).
  - split; auto. split; [|split; [apply repeat_length|]].
    + intros j t Ej. exists t. split; auto. right. split; auto. intros i Hi. lia.
    + intros i Hi. exists Fresh. split; [apply nth_error_repeat; lia|]. right. split; auto. lia.
  - intros i s Hi Hs. apply sort_one_ok; auto.
  - rewrite E. cbn [bind]. destruct HS as (L & HD & LS & HE).
    destruct (deref_all pix sorted) with (acc := @nil target) as (r & ER & LR & HR).
    { intros e He. apply In_nth_error in He as (k & Ek).
      assert (K : (k < length sorted)%nat) by (apply nth_error_Some; congruence).
      destruct (HE (Z.of_nat k)) as (e' & Ee & X); [lia|]. rewrite Nat2Z.id, Ek in Ee. injection Ee as <-.
      destruct X as [(_ & j & (p & _ & _ & (t & T & _)) & ->)|(_ & ->)]; auto. right. exists j. split; auto. rewrite L. apply nth_error_Some. congruence. }
    cbn [app] in ER. rewrite ER. cbn [bind]. exists r, pix. split; auto. split; [lia|]. split; auto. split.
    + intros i Hi. destruct (HE i Hi) as (e & Ee & X). destruct (HR _ _ Ee) as (t & Et & HT).
      destruct X as [(_ & j & A & ->)|(NA & ->)].
      * left. exists j, t. rewrite Nat2Z.id in HT. auto.
      * right. subst t. split; auto. apply NA. lia.
    + intros j t Ej. destruct (HD j t Ej) as (t' & Et & [(i & A & ->)|(NA & ->)]); [left; eauto|right; auto].
Qed.
(** if no detection is nearest0 to two points *)
Theorem sortgrid_injective nfix : 0 <= nfix -> (forall i, 0 <= i < nfix -> exists p, project i = Ok p) ->
  (forall i i' j, 0 <= i < nfix -> 0 <= i' < nfix -> Asg i j -> Asg i' j -> i = i') ->
  exists sorted pix, sortgrid project eps imx imy nfix pix0 = Ok (sorted, pix) /\ length sorted = Z.to_nat nfix /\
    forall i, 0 <= i < nfix ->
       (exists j t, Asg i j /\ nth_error pix0 j = Some t /\ nth_error sorted (Z.to_nat i) = Some (set_pnr t i)) \/
       ((forall j, ~ Asg i j) /\ nth_error sorted (Z.to_nat i) = Some new_target).
Proof.
  intros HN HP INJ. destruct (sortgrid_ok nfix HN HP) as (sorted & pix & E & LS & LP & HI & HJ). exists sorted, pix. split; auto. split; auto.
  intros i Hi. destruct (HI i Hi) as [(j & t & A & Et & Es)|H]; [left|now right].
  assert (X : exists t0, nth_error pix0 j = Some t0).
  { destruct (nth_error pix0 j) eqn:X; eauto. apply nth_error_None in X. assert (j < length pix)%nat by (apply nth_error_Some; congruence). lia. }
  destruct X as (t0 & E0). exists j, t0. split; auto. split; auto. rewrite Es. f_equal.
  destruct (HJ j t0 E0) as [(i' & (I1 & I2 & _) & X)|(N & _)]; [|exfalso; now apply (N i)].
  assert (i = i') by (eapply INJ; eauto). subst i'. congruence.
Qed.
End Sortgrid.

(** ---- prepare_image ---- *)
Lemma lor_ge a b : 0 <= a -> 0 <= b -> a <= Z.lor a b.
Proof.
  intros Ha Hb.
  assert (E : Z.lor a b = a + Z.ldiff b a).
  { assert (N : Z.land a (Z.ldiff b a) = 0).
    { apply Z.bits_inj'. intros n Hn. rewrite Z.land_spec, Z.ldiff_spec, Z.bits_0. now destruct (Z.testbit a n), (Z.testbit b n). }
    rewrite (Z.add_nocarry_lxor _ _ N). rewrite (Z.lxor_lor _ _ N).
    apply Z.bits_inj'. intros n Hn. rewrite !Z.lor_spec, Z.ldiff_spec. now destruct (Z.testbit a n), (Z.testbit b n). }
  assert (0 <= Z.ldiff b a) by (apply Z.ldiff_nonneg; auto). lia.
Qed.
Lemma lor_byte a b : is_byte a -> is_byte b -> is_byte (Z.lor a b) /\ a <= Z.lor a b /\ b <= Z.lor a b.
Proof.
  intros (A1 & A2) (B1 & B2). pose proof (lor_ge a b A1 B1). pose proof (lor_ge b a B1 A1) as H'. rewrite Z.lor_comm in H'.
  split; [|auto]. split; [lia|]. 
  assert (Z.lor a b < 2 ^ 8); [|lia]. destruct (Z.eq_dec (Z.lor a b) 0) as [->|N]; [lia|].
  apply Z.log2_lt_pow2; [lia|]. rewrite Z.log2_lor by auto. apply Z.max_lub_lt.
  - destruct (Z.eq_dec a 0) as [->|]; [reflexivity|]. apply Z.log2_lt_pow2; lia.
  - destruct (Z.eq_dec b 0) as [->|]; [reflexivity|]. apply Z.log2_lt_pow2; lia.
Qed.
Lemma zip_or_nth a : forall b k, length b = length a -> nth_error (zip_or a b) k =
  match nth_error a k, nth_error b k with Some x, Some y => Some (Z.lor x y) | _, _ => None end.
Proof.
  induction a as [|x a IH]; intros [|y b] k L; try discriminate; [now destruct k|]. cbn [zip_or].
  destruct k as [|k]; cbn [nth_error]; [reflexivity|]. apply IH. now injection L.
Qed.
Section Prep.
Variable uniform : Z -> list Z -> list Z.
Variable file_filter : option (list Z -> list Z).
Hypothesis UL : forall n img, length (uniform n img) = length img.
Hypothesis UB : forall n img, Forall is_byte img -> Forall is_byte (uniform n img).
Lemma prepare_pixels img dim_lp has_file fhp : Forall is_byte img -> fhp <> 1 -> (fhp = 2 -> has_file = false) ->
  exists out, prepare_image uniform file_filter img dim_lp fhp has_file = Ok out /\ length out = length img /\
  forall k v lp, nth_error img k = Some v -> nth_error (uniform (dim_lp * 2 + 1) img) k = Some lp ->
    exists o, nth_error out k = Some o /\ is_byte o /\ v <= o /\ lp <= o /\ (o = Z.max (v - lp) 0 <-> lp = 0).
Proof.
  intros HB N1 N2. unfold prepare_image. destruct (Z.eqb_spec fhp 1); [contradiction|].
  replace ((fhp =? 2) && has_file) with false.
  2:{ destruct (Z.eqb_spec fhp 2) as [E|]; [|reflexivity]. now rewrite (N2 E). }
  eexists. split; [reflexivity|]. split.
  - clear -UL. specialize (UL (dim_lp * 2 + 1) img). revert UL. generalize (uniform (dim_lp * 2 + 1) img). intros b. revert b.
    induction img as [|x a IH]; intros [|y b] L; try discriminate; auto. cbn [zip_or length]. f_equal. apply IH. now injection L.
  - intros k v lp Ev El. rewrite zip_or_nth by apply UL. rewrite Ev, El. eexists. split; [reflexivity|].
    rewrite Forall_forall in HB. assert (BV : is_byte v) by (apply HB; eapply nth_error_In; eauto).
    assert (BL : is_byte lp).
    { assert (X : Forall is_byte (uniform (dim_lp * 2 + 1) img)) by (apply UB; now apply Forall_forall). rewrite Forall_forall in X.
      apply X. eapply nth_error_In; eauto. }
    destruct (lor_byte v lp BV BL) as (B1 & B2 & B3). split; auto. split; auto. split; auto.
    unfold is_byte in *. split; intros H; [lia|]. subst lp. rewrite Z.lor_0_r. lia.
Qed.
End Prep.
