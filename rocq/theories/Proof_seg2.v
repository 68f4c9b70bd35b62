(** Segmentation: the scan over the image. *)
From Coq Require Import Permutation.
From Verif Require Import Base Lib F64 Model_corr Model_seg Spec_seg Proof_seg.
Local Open Scope Z_scope.

Lemma span_unique l lo hi lo' hi' : span l lo hi -> span l lo' hi' -> lo = lo' /\ hi = hi'.
Proof.
  intros (A1 & A2 & A3) (B1 & B2 & B3). pose proof (A3 _ B1). pose proof (A3 _ B2). pose proof (B3 _ A1). pose proof (B3 _ A2). lia.
Qed.
Lemma excess_sum m L R : zsum (map (excess m L) R) = zsum (map (grey m) R) - Z.of_nat (length R) * l_thres L.
Proof. unfold zsum. induction R as [|p R IH]; [reflexivity|]. cbn [map fold_right length]. rewrite IH. unfold excess. lia. Qed.

Lemma NoDup_app_intro {A} (a b : list A) : NoDup a -> NoDup b -> (forall x, In x b -> ~ In x a) -> NoDup (a ++ b).
Proof.
  intros Na Nb D. induction a as [|x a IH]; auto. inversion Na; subst. simpl. constructor.
  - intros X. apply in_app_or in X as [X|X]; auto. apply (D x X). now left.
  - apply IH; auto. intros y Hy X. apply (D y Hy). now right.
Qed.

Section Scan.
Variable img : image.
Variable L : limits.
Hypothesis RO : range_ok img L.
Hypothesis TH : 0 <= l_thres L.
Variable cap : nat.
Hypothesis CAP : blobs_below img L (Z.of_nat cap).

Lemma finish_ok R g pix Rs : stats img L R g -> (forall q, In q R -> in_range L q) -> reported img L Rs pix ->
  reported img L (Rs ++ [R]) (finish L g pix).
Proof.
  intros (S1 & S2 & S3 & S4 & S5 & S6) IR HR. unfold finish.
  assert (BX : l_xmin L <= g_xa g /\ g_xb g < l_xmax L).
  { destruct S3 as (A1 & A2 & _). apply in_map_iff in A1 as (p & <- & Hp). apply in_map_iff in A2 as (q & <- & Hq).
    apply IR in Hp as (Hp & _). apply IR in Hq as (Hq & _). lia. }
  assert (BY : l_ymin L <= g_ya g /\ g_yb g < l_ymax L).
  { destruct S4 as (A1 & A2 & _). apply in_map_iff in A1 as (p & <- & Hp). apply in_map_iff in A2 as (q & <- & Hq).
    apply IR in Hp as (_ & Hp). apply IR in Hq as (_ & Hq). lia. }
  destruct (Z.eqb_spec (g_xa g) (l_xmin L - 1)); [lia|]. destruct (Z.eqb_spec (g_ya g) (l_ymin L - 1)); [lia|].
  destruct (Z.eqb_spec (g_xb g) (l_xmax L + 1)); [lia|]. destruct (Z.eqb_spec (g_yb g) (l_ymax L + 1)); [lia|]. cbn [orb].
  rewrite Z.gtb_ltb, !Z.geb_leb. destruct (_ && _) eqn:E.
  - rewrite !andb_true_iff, !Z.leb_le, Z.ltb_lt in E. destruct E as ((((((E1 & E2) & E3) & E4) & E5) & E6) & E7).
    apply rep_take; auto.
    + split; [lia|]. split; [exists (g_xa g), (g_xb g); auto|]. split; [exists (g_ya g), (g_yb g); auto|]. lia.
    + assert (ES : g_sumg g - g_numpix g * l_thres L = zsum (map (excess img L) R)) by (rewrite excess_sum; lia).
      rewrite ES, S5, S6. unfold describes. cbn [t_pnr t_tnr t_n t_nx t_ny t_sumg t_x t_y].
      split; auto. split; auto. split; auto. split; [exists (g_xa g), (g_xb g); auto|]. split; [exists (g_ya g), (g_yb g); auto|]. auto.
  - apply rep_drop; auto. intros (A1 & (lo & hi & A2 & A3) & (lo' & hi' & A4 & A5) & A6).
    destruct (span_unique _ _ _ _ _ S3 A2) as (<- & <-). destruct (span_unique _ _ _ _ _ S4 A4) as (<- & <-).
    assert (X : (l_nnmin L <=? g_numpix g) && (g_numpix g <=? l_nnmax L) && (l_nxmin L <=? g_xb g - g_xa g + 1) && (g_xb g - g_xa g + 1 <=? l_nxmax L) &&
       (l_nymin L <=? g_yb g - g_ya g + 1) && (g_yb g - g_ya g + 1 <=? l_nymax L) && (l_sumg_min L <? g_sumg g) = true); [|congruence].
    rewrite !andb_true_iff, !Z.leb_le, Z.ltb_lt. lia.
Qed.

Lemma local_max_ok T m0 i j gv : zeroed img T m0 -> in_range L (j, i) -> 0 <= gv ->
  exists b, local_max m0 gv i j = Ok b /\ (b = true <-> forall q, around (j, i) q -> ~ In q T -> grey img q <= gv).
Proof.
  intros (ZH & ZW & ZP) ((X1 & X2) & (Y1 & Y2)) Hg. cbn [fst snd] in *. destruct RO as (R1 & R2 & R3 & R4).
  unfold local_max. rewrite !ge_px_in by (rewrite ?ZH, ?ZW; lia).
  exists (forallb (fun p => gv >=? im_px m0 (snd p) (fst p))
    [(j - 1, i); (j + 1, i); (j, i - 1); (j, i + 1); (j - 1, i - 1); (j - 1, i + 1); (j + 1, i - 1); (j + 1, i + 1)]). split.
  - cbn [andM bind forallb fst snd]. repeat (match goal with |- context [if ?b then _ else _] => destruct b end; [|reflexivity]). cbn [andb].
    reflexivity.
  - rewrite forallb_forall. split.
    + intros H q (N & A1 & A2) NT. specialize (H q).
      assert (I : In q [(j - 1, i); (j + 1, i); (j, i - 1); (j, i + 1); (j - 1, i - 1); (j - 1, i + 1); (j + 1, i - 1); (j + 1, i + 1)]).
      { destruct q as [a b]. cbn [fst snd] in *.
        assert (C : (a = j - 1 \/ a = j \/ a = j + 1) /\ (b = i - 1 \/ b = i \/ b = i + 1)) by lia.
        destruct C as ([->|[->| ->]] & [->|[->| ->]]); cbn; try tauto. }
      apply H in I. rewrite ZP in I. replace (fst q, snd q) with q in I by (destruct q; reflexivity).
      destruct (in_dec pix_dec q T); [contradiction|]. rewrite Z.geb_leb, Z.leb_le in I. exact I.
    + intros H q Hq. rewrite ZP. replace (fst q, snd q) with q by (destruct q; reflexivity). rewrite Z.geb_leb, Z.leb_le.
      destruct (in_dec pix_dec q T) as [|NT]; auto. apply H; auto.
      cbn [In] in Hq. unfold around. cbn [fst snd].
      repeat (destruct Hq as [<-|Hq]; [split; [intros X; injection X; lia|cbn [fst snd]; lia]|]). destruct Hq.
Qed.

Definition SInv (Rs : list (list pixel)) (st : image * list target) : Prop :=
  zeroed img (concat Rs) (fst st) /\ NoDup (concat Rs) /\ (forall q, In q (concat Rs) -> in_range L q) /\
  segmentation img L Rs /\ reported img L Rs (snd st).
Definition bright_peak (p : pixel) : Prop := l_thres L < grey img p /\ forall q, around p q -> grey img q <= grey img p.

Lemma concat_snoc {A} (Rs : list (list A)) R : concat (Rs ++ [R]) = concat Rs ++ R.
Proof. rewrite concat_app. simpl. now rewrite app_nil_r. Qed.

Lemma scan_pixel_ok Rs st i j : SInv Rs st -> in_range L (j, i) ->
  exists st' e, scan_pixel img L cap i st j = Ok st' /\ SInv (Rs ++ e) st' /\ (bright_peak (j, i) -> In (j, i) (concat (Rs ++ e))) /\
    (forall ps, scanned img L ps Rs -> scanned img L (ps ++ [(j, i)]) (Rs ++ e)).
Proof.
  destruct st as [img0 pix]. intros I Hr. pose proof I as (Z0 & ND & IR & SG & RP). cbn [fst snd] in *.
  pose proof Hr as ((X1 & X2) & (Y1 & Y2)). cbn [fst snd] in *. pose proof RO as (R1 & R2 & R3 & R4). pose proof Z0 as (ZH & ZW & ZP).
  assert (SAME : forall (no : ~ peak img L (fun p => ~ In p (concat Rs)) (j, i)),
    exists st' e, Ok (img0, pix) = Ok st' /\ SInv (Rs ++ e) st' /\ (bright_peak (j, i) -> In (j, i) (concat (Rs ++ e))) /\
    (forall ps, scanned img L ps Rs -> scanned img L (ps ++ [(j, i)]) (Rs ++ e))).
  { intros no. exists (img0, pix), []. rewrite app_nil_r. split; auto. split; auto. split; [|intros ps SC; now apply sc_none].
    intros (B1 & B2). destruct (in_dec pix_dec (j, i) (concat Rs)) as [IN|NI]; [exact IN|]. destruct no. split; [exact Hr|]. split; [exact NI|]. split; [exact B1|]. intros q Aq _. now apply B2. }
  unfold scan_pixel. rewrite iget_in by (rewrite ?ZH, ?ZW; lia). cbn [bind]. rewrite ZP, Z.gtb_ltb.
  destruct (in_dec pix_dec (j, i) (concat Rs)) as [IN|NI].
  { destruct (Z.ltb_spec (l_thres L) 0); [lia|]. apply SAME. intros (_ & F & _). contradiction. }
  change (im_px img i j) with (grey img (j, i)).
  destruct (Z.ltb_spec (l_thres L) (grey img (j, i))) as [HT|HT]; [|apply SAME; intros (_ & _ & B & _); lia].
  destruct (local_max_ok (concat Rs) img0 i j (grey img (j, i)) Z0 Hr ltac:(lia)) as (b & Eb & Hb). rewrite Eb. cbn [bind].
  destruct b; [|apply SAME; intros (_ & _ & _ & B); assert (false = true) by (apply Hb; auto); discriminate].
  assert (PK : peak img L (fun p => ~ In p (concat Rs)) (j, i)).
  { split; auto. split; auto. split; auto. intros q Ha Hf. now apply (proj1 Hb eq_refl). }
  rewrite iset_in by (rewrite ?ZH, ?ZW; lia). cbn [bind].
  assert (AR : 1 <= Z.of_nat cap).
  { apply (CAP (j, i) [(j, i)]); [repeat constructor; auto|]. intros q [<-|[]]. apply reach_start. }
  rewrite pyset_in_range by (rewrite repeat_length; lia). cbn [bind].
  set (g0 := mk_grow _ _ _ _ _ _ _ _ _ _ _).
  assert (G : GInv img L cap (concat Rs) (j, i) [] [(j, i)] g0).
  { unfold GInv. cbn [app]. split; [|split; [|split; [|split; [|split; [|split]]]]].
    - apply (zeroed_set img _ _ j i) in Z0. exact Z0.
    - constructor; [intros []|constructor].
    - intros q [<-|[]]. exact NI.
    - intros q [<-|[]]. apply reach_start.
    - intros q [<-|[]]. exact Hr.
    - unfold stats, g0. cbn [g_sumg g_numpix g_xa g_xb g_ya g_yb g_x g_y map length fst snd]. unfold zsum, span, excess. cbn [fold_right In].
      split; [lia|]. split; [lia|]. split; [split; [now left|split; [now left|]]; intros v [<-|[]]; lia|].
      split; [split; [now left|split; [now left|]]; intros v [<-|[]]; lia|]. split; lia.
    - split; [reflexivity|]. cbn [g_wait g0]. split; [now rewrite upd_length, repeat_length|].
      destruct cap as [|n]; [lia|]. exists (repeat (0, 0) n). reflexivity. }
  destruct (rounds_ok img L RO TH cap CAP (concat Rs) (j, i) (Z.to_nat (im_h img * im_w img) + 1) [] [(j, i)] g0 G) as (g & R & E & GR & CL & IN).
  { intros p q []. }
  { cbn [length]. nia. }
  rewrite E. cbn [bind]. destruct GR as (Z1 & ND1 & DJ1 & RE1 & IR1 & ST1 & _). rewrite app_nil_r in *.
  assert (RR : forall q, In q R <-> reach img L (fun q => ~ In q (concat Rs)) (j, i) q).
  { intros q. split; [apply RE1|]. intros H. induction H as [|p q Hp IHp Ha Hf]; [apply IN; now left|].
    destruct (CL p q IHp Ha) as [X|X]; [contradiction|exact X]. }
  eexists. exists [R]. split; [reflexivity|]. rewrite concat_snoc. split.
  2:{ split; [intros _; apply in_or_app; right; apply IN; now left|]. intros ps SC. now apply sc_peak. }
  unfold SInv. cbn [fst snd]. rewrite concat_snoc. split; [exact Z1|]. split; [|split; [|split]].
  - apply NoDup_app_intro; auto.
  - intros q Hq. apply in_app_or in Hq as [Hq|Hq]; auto.
  - intros Rs1 R' Rs2 EQ. destruct Rs2 as [|R2' Rs2 _] using rev_ind.
    + apply app_inj_tail in EQ as (<- & <-). split; auto. exists (j, i). split; auto.
    + assert (EQ' : Rs ++ [R] = (Rs1 ++ R' :: Rs2) ++ [R2']) by (rewrite EQ, <- app_assoc; reflexivity).
      apply app_inj_tail in EQ' as (EQ' & _). eapply SG; eauto.
  - eapply finish_ok; eauto.
Qed.

Lemma scan_row_ok i : l_ymin L <= i < l_ymax L -> forall l Rs st, (forall j, In j l -> l_xmin L <= j < l_xmax L) -> SInv Rs st ->
  exists st' e, foldM (scan_pixel img L cap i) l st = Ok st' /\ SInv (Rs ++ e) st' /\
    (forall j, In j l -> bright_peak (j, i) -> In (j, i) (concat (Rs ++ e))) /\
    (forall ps, scanned img L ps Rs -> scanned img L (ps ++ map (fun j => (j, i)) l) (Rs ++ e)).
Proof.
  intros Hi. induction l as [|j l IH]; intros Rs st Hl I.
  - exists st, []. rewrite app_nil_r. split; auto. split; auto. split; [intros j []|]. intros ps SC. cbn [map]. now rewrite app_nil_r.
  - destruct (scan_pixel_ok Rs st i j I) as (st1 & e1 & E1 & I1 & P1 & S1). { split; cbn; auto. apply Hl. now left. }
    destruct (IH (Rs ++ e1) st1) as (st2 & e2 & E2 & I2 & P2 & S2); auto. { intros k Hk. apply Hl. now right. }
    exists st2, (e1 ++ e2). cbn [foldM]. rewrite E1. cbn [bind]. rewrite app_assoc. split; auto. split; auto.
    split. 2: { intros ps SC. cbn [map]. replace (ps ++ (j, i) :: map (fun j0 => (j0, i)) l) with ((ps ++ [(j, i)]) ++ map (fun j0 => (j0, i)) l) by (rewrite <- app_assoc; reflexivity). auto. }
    intros k [<-|Hk] B; [|now apply P2]. rewrite concat_app. apply in_or_app. left. now apply P1.
Qed.

Lemma scan_ok : forall l Rs st, (forall i, In i l -> l_ymin L <= i < l_ymax L) -> SInv Rs st ->
  exists st' e, foldM (scan_row img L cap) l st = Ok st' /\ SInv (Rs ++ e) st' /\
    (forall i j, In i l -> l_xmin L <= j < l_xmax L -> bright_peak (j, i) -> In (j, i) (concat (Rs ++ e))) /\
    (forall ps, scanned img L ps Rs -> scanned img L (ps ++ flat_map (fun y => map (fun x => (x, y)) (zrange (l_xmin L) (l_xmax L))) l) (Rs ++ e)).
Proof.
  induction l as [|i l IH]; intros Rs st Hl I.
  - exists st, []. rewrite app_nil_r. split; auto. split; auto. split; [intros i j []|]. intros ps SC. cbn [flat_map]. now rewrite app_nil_r.
  - destruct (scan_row_ok i (Hl i (or_introl eq_refl)) (zrange (l_xmin L) (l_xmax L)) Rs st) as (st1 & e1 & E1 & I1 & P1 & S1); auto.
    { intros j Hj. now apply In_zrange. }
    destruct (IH (Rs ++ e1) st1) as (st2 & e2 & E2 & I2 & P2 & S2); auto. { intros k Hk. apply Hl. now right. }
    exists st2, (e1 ++ e2). cbn [foldM]. unfold scan_row at 1. rewrite E1. cbn [bind]. rewrite app_assoc. split; auto. split; auto.
    split. 2: { intros ps SC. cbn [flat_map]. rewrite app_assoc. auto. }
    intros k j [<-|Hk] Hj B; [|now apply P2]. rewrite concat_app. apply in_or_app. left. apply P1; auto. now apply In_zrange.
Qed.

Theorem fast_targ_rec_ok : exists Rs ts, fast_targ_rec img L cap = Ok ts /\
  segmentation img L Rs /\ reported img L Rs ts /\ NoDup (concat Rs) /\ (forall q, In q (concat Rs) -> in_range L q /\ l_thres L < grey img q) /\
  (forall p, in_range L p -> l_thres L < grey img p -> (forall q, around p q -> grey img q <= grey img p) -> In p (concat Rs)) /\ scanned img L (raster L) Rs.
Proof.
  destruct (scan_ok (zrange (l_ymin L) (l_ymax L)) [] (img, [])) as (st & Rs & E & (Z0 & ND & IR & SG & RP) & PK & SC).
  { intros i Hi. now apply In_zrange. }
  { split; [|split; [constructor|split; [intros q []|split; [|apply rep_nil]]]].
    - split; auto.
    - intros Rs1 R Rs2 EQ. destruct Rs1; discriminate. }
  cbn [app] in *. exists Rs, (snd st). unfold fast_targ_rec. rewrite E. cbn [bind]. split; auto. split; auto. split; auto. split; auto. split; [|split; [|exact (SC [] (sc_nil img L))]].
  - intros q Hq. split; auto. apply in_concat in Hq as (R & HR & Hq). apply in_split in HR as (Rs1 & Rs2 & EQ).
    destruct (SG Rs1 R Rs2 EQ) as (_ & s & (_ & _ & PS & _) & RR). apply RR in Hq. inversion Hq as [|p q' H1 H2 H3]; subst; auto. apply H2.
  - intros [x y] ((X1 & X2) & (Y1 & Y2)) T A. cbn [fst snd] in *. apply PK; [now apply In_zrange|lia|split; auto].
Qed.
End Scan.
