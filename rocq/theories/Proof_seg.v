(** Segmentation: growing one region. *)
From Coq Require Import Permutation.
From Verif Require Import Base Lib F64 Model_corr Model_seg Spec_seg.
Local Open Scope Z_scope.

Definition pix_dec : forall p q : pixel, {p = q} + {p <> q}.
Proof. intros [a b] [c d]. destruct (Z.eq_dec a c), (Z.eq_dec b d); [left|right|right|right]; congruence. Defined.

Lemma axis_in n i : 0 <= i < n -> axis n i = Some i.
Proof. intros H. unfold axis. destruct (Z.leb_spec 0 i), (Z.ltb_spec i n); try lia. reflexivity. Qed.
Lemma iget_in m y x : 0 <= y < im_h m -> 0 <= x < im_w m -> iget m y x = Ok (im_px m y x).
Proof. intros H1 H2. unfold iget. now rewrite !axis_in. Qed.
Lemma iset_in m y x v : 0 <= y < im_h m -> 0 <= x < im_w m ->
  iset m y x v = Ok (mk_image (im_h m) (im_w m) (fun a b => if (a =? y) && (b =? x) then v else im_px m a b)).
Proof. intros H1 H2. unfold iset. now rewrite !axis_in. Qed.

(** ---- the wait list ---- *)
Lemma shift_fold (Q : list (Z * Z)) : forall (pre : list (Z * Z)) p z k, k = Z.of_nat (length pre) ->
  foldM (fun w m => do v <- pyget w (m + 1); pyset w m v) (zrange k (k + Z.of_nat (length Q))) (pre ++ p :: Q ++ z)
  = Ok (pre ++ Q ++ last Q p :: z).
Proof.
  induction Q as [|q Q IH]; intros pre p z k ->.
  - cbn [length]. rewrite zrange_empty by lia. reflexivity.
  - cbn [length]. rewrite zrange_cons by lia. cbn [foldM].
    rewrite (pyget_nonneg _ _ q) by (try lia; rewrite nth_error_app2 by lia; replace (Z.to_nat (Z.of_nat (length pre) + 1) - length pre)%nat with 1%nat by lia; reflexivity).
    cbn [bind]. rewrite pyset_in_range by (rewrite app_length; simpl; lia). cbn [bind].
    rewrite Nat2Z.id, upd_app_len.
    replace (pre ++ q :: (q :: Q) ++ z) with ((pre ++ [q]) ++ q :: Q ++ z) by (rewrite <- app_assoc; reflexivity).
    replace (Z.of_nat (length pre) + Z.of_nat (S (length Q))) with (Z.of_nat (length pre) + 1 + Z.of_nat (length Q)) by lia.
    rewrite (IH (pre ++ [q]) q z) by (rewrite app_length; simpl; lia). f_equal. rewrite <- app_assoc. simpl.
    destruct Q as [|b Q]; [reflexivity|]. do 4 f_equal. change (last (b :: Q) q = last (b :: Q) p).
    clear. revert b. induction Q as [|c Q IH]; intros b; [reflexivity|]. exact (IH c).
Qed.
Lemma shift_ok (p : Z * Z) Q z : shift (p :: Q ++ z) (Z.of_nat (length Q)) = Ok (Q ++ (0, 0) :: z).
Proof.
  unfold shift. pose proof (shift_fold Q [] p z 0 eq_refl) as H. cbn [app] in H. rewrite Z.add_0_l in H. rewrite H. cbn [bind].
  rewrite pyset_in_range by (rewrite app_length; simpl; lia). now rewrite Nat2Z.id, upd_app_len.
Qed.

Lemma zsum_app a b : zsum (a ++ b) = zsum a + zsum b.
Proof. unfold zsum. induction a as [|x a IH]; simpl; [reflexivity|]. rewrite IH. lia. Qed.

Section Grow.
Variable img : image.
Variable L : limits.
Hypothesis RO : range_ok img L.
Hypothesis TH : 0 <= l_thres L.
Variable cap : nat.
Hypothesis CAP : blobs_below img L (Z.of_nat cap).

(** the working copy is the image with the taken pixels set to 0 *)
Definition zeroed (T : list pixel) (m : image) : Prop :=
  im_h m = im_h img /\ im_w m = im_w img /\
  forall y x, im_px m y x = if in_dec pix_dec (x, y) T then 0 else im_px img y x.

Lemma zeroed_more T T' m : (forall p, In p T <-> In p T') -> zeroed T m -> zeroed T' m.
Proof.
  intros E (H1 & H2 & H3). split; auto. split; auto. intros y x. rewrite H3.
  destruct (in_dec pix_dec (x, y) T) as [I|I], (in_dec pix_dec (x, y) T') as [J|J]; auto; [exfalso; apply J; now apply E|exfalso; apply I; now apply E].
Qed.
Lemma zeroed_set T m x y : zeroed T m -> zeroed (T ++ [(x, y)]) (mk_image (im_h m) (im_w m) (fun a b => if (a =? y) && (b =? x) then 0 else im_px m a b)).
Proof.
  intros (H1 & H2 & H3). split; auto. split; auto. intros y' x'. cbn [im_px]. rewrite H3.
  destruct (Z.eqb_spec y' y) as [->|N1]; destruct (Z.eqb_spec x' x) as [->|N2]; cbn [andb].
  - destruct (in_dec pix_dec (x, y) (T ++ [(x, y)])) as [J|J]; auto. exfalso. apply J. apply in_or_app. right. now left.
  - destruct (in_dec pix_dec (x', y) T) as [I|I], (in_dec pix_dec (x', y) (T ++ [(x, y)])) as [J|J]; auto.
    + exfalso. apply J. apply in_or_app. now left.
    + exfalso. apply in_app_or in J as [J|[J|[]]]; [auto|congruence].
  - destruct (in_dec pix_dec (x, y') T) as [I|I], (in_dec pix_dec (x, y') (T ++ [(x, y)])) as [J|J]; auto.
    + exfalso. apply J. apply in_or_app. now left.
    + exfalso. apply in_app_or in J as [J|[J|[]]]; [auto|congruence].
  - destruct (in_dec pix_dec (x', y') T) as [I|I], (in_dec pix_dec (x', y') (T ++ [(x, y)])) as [J|J]; auto.
    + exfalso. apply J. apply in_or_app. now left.
    + exfalso. apply in_app_or in J as [J|[J|[]]]; [auto|congruence].
Qed.

Lemma area_bound R : NoDup R -> (forall q, In q R -> in_range L q) -> Z.of_nat (length R) <= area L.
Proof.
  intros ND HR.
  assert (I : incl R (list_prod (zrange (l_xmin L) (l_xmax L)) (zrange (l_ymin L) (l_ymax L)))).
  { intros [x y] Hq. apply in_prod_iff. rewrite !In_zrange. apply HR in Hq. exact Hq. }
  pose proof (NoDup_incl_length ND I) as HL. unfold pixel in HL. rewrite prod_length, !zrange_length in HL. unfold area.
  apply inj_le in HL. rewrite Nat2Z.inj_mul, !ZifyInst.of_nat_to_nat_eq in HL. exact HL.
Qed.

Lemma reach_any free s q : reach img L free s q -> reach img L (fun _ => True) s q.
Proof. intros H. induction H; [apply reach_start|eapply reach_grow; eauto]. Qed.

Definition stats (R : list pixel) (st : grow) : Prop :=
  g_sumg st = zsum (map (grey img) R) /\ g_numpix st = Z.of_nat (length R) /\
  span (map fst R) (g_xa st) (g_xb st) /\ span (map snd R) (g_ya st) (g_yb st) /\
  g_x st = zsum (map (fun p => fst p * excess img L p) R) /\ g_y st = zsum (map (fun p => snd p * excess img L p) R).
Definition waiting (Q : list pixel) (st : grow) : Prop :=
  g_nwait st = Z.of_nat (length Q) /\ length (g_wait st) = cap /\ exists z, g_wait st = Q ++ z.
Definition GInv (T0 : list pixel) (s : pixel) (P Q : list pixel) (st : grow) : Prop :=
  zeroed (T0 ++ P ++ Q) (g_img0 st) /\ NoDup (P ++ Q) /\ (forall q, In q (P ++ Q) -> ~ In q T0) /\
  (forall q, In q (P ++ Q) -> reach img L (fun p => ~ In p T0) s q) /\ (forall q, In q (P ++ Q) -> in_range L q) /\
  stats (P ++ Q) st /\ waiting Q st.

Lemma span_snoc l lo hi v : span l lo hi -> span (l ++ [v]) (if v <? lo then v else lo) (if hi <? v then v else hi).
Proof.
  intros (H1 & H2 & H3). split; [|split].
  - apply in_or_app. destruct (v <? lo); [right; now left|now left].
  - apply in_or_app. destruct (hi <? v); [right; now left|now left].
  - intros u Hu. apply in_app_or in Hu as [Hu|[<-|[]]]; [apply H3 in Hu|].
    + destruct (Z.ltb_spec v lo), (Z.ltb_spec hi v); lia.
    + specialize (H3 lo H1). destruct (Z.ltb_spec v lo), (Z.ltb_spec hi v); lia.
Qed.

Lemma ge_px_in v m y x : 0 <= y < im_h m -> 0 <= x < im_w m -> ge_px v m y x = Ok (v >=? im_px m y x).
Proof. intros H1 H2. unfold ge_px. now rewrite iget_in. Qed.

Lemma visit_ok T0 s P Q st p q : GInv T0 s P Q st -> In p (P ++ Q) -> neighbour p q ->
  exists st' l, visit img L (grey img p) st q = Ok st' /\ GInv T0 s P (Q ++ l) st' /\
    (admits img L p q -> In q T0 \/ In q (P ++ Q ++ l)).
Proof.
  intros G Hp Nb. pose proof G as (Z0 & ND & DJ & RE & IR & ST & WA). destruct q as [xn yn]. unfold visit.
  destruct RO as (R1 & R2 & R3 & R4).
  assert (SAME : forall (no : ~ admits img L p (xn, yn) \/ In (xn, yn) (T0 ++ P ++ Q)),
    exists st' l, Ok st = Ok st' /\ GInv T0 s P (Q ++ l) st' /\ (admits img L p (xn, yn) -> In (xn, yn) T0 \/ In (xn, yn) (P ++ Q ++ l))).
  { intros no. exists st, []. rewrite !app_nil_r. split; auto. split; auto. intros A. destruct no as [no|no]; [contradiction|].
    apply in_app_or in no. exact no. }
  destruct ((xn >=? l_xmax L) || (yn >=? l_ymax L) || (xn <? 0) || (yn <? 0)) eqn:EG.
  { apply SAME. left. intros (_ & ((X1 & X2) & (Y1 & Y2)) & _). cbn [fst snd] in *. rewrite !orb_true_iff, !Z.geb_leb, !Z.leb_le, !Z.ltb_lt in EG. lia. }
  rewrite !orb_false_iff, !Z.geb_leb, !Z.leb_gt, !Z.ltb_ge in EG. destruct EG as (((E1 & E2) & E3) & E4).
  pose proof Z0 as (ZH & ZW & ZP).
  rewrite iget_in by (rewrite ?ZH, ?ZW; lia). cbn [bind]. rewrite ZP.
  destruct (in_dec pix_dec (xn, yn) (T0 ++ P ++ Q)) as [IN|NI].
  { rewrite Z.gtb_ltb. destruct (Z.ltb_spec (l_thres L) 0); [lia|]. cbn [andM bind]. apply SAME. now right. }
  set (gv := im_px img yn xn). change (im_px img yn xn) with gv.
  cbn [andM bind]. rewrite !Z.gtb_ltb.
  destruct (Z.ltb_spec (l_thres L) gv) as [C1|C1]; [|apply SAME; left; intros (_ & _ & A & _); unfold grey in A; cbn in A; unfold gv in *; lia].
  destruct (Z.ltb_spec (l_xmin L - 1) xn) as [C2|C2]; [|apply SAME; left; intros (_ & ((A & _) & _) & _); cbn in A; lia].
  destruct (Z.ltb_spec xn (l_xmax L + 1)) as [C3|C3]; [|lia].
  destruct (Z.ltb_spec (l_ymin L - 1) yn) as [C4|C4]; [|apply SAME; left; intros (_ & (_ & (A & _)) & _); cbn in A; lia].
  destruct (Z.ltb_spec yn (l_ymax L + 1)) as [C5|C5]; [|lia].
  destruct (Z.leb_spec gv (grey img p + l_disco L)) as [C6|C6]; [|apply SAME; left; intros (_ & _ & _ & A & _); unfold grey in A at 1; cbn in A; unfold gv in *; lia].
  rewrite !ge_px_in by lia. cbn [bind]. rewrite !Z.geb_leb.
  assert (NOB : forall r, neighbour (xn, yn) r -> grey img p + l_disco L < grey img r -> ~ admits img L p (xn, yn)).
  { intros r Hr Hg (_ & _ & _ & _ & A). specialize (A r Hr). lia. }
  destruct (Z.leb_spec (im_px img (yn - 1) xn) (grey img p + l_disco L)) as [C7|C7];
    [|apply SAME; left; apply (NOB (xn, yn - 1)); [unfold neighbour; cbn; auto|exact C7]].
  destruct (Z.leb_spec (im_px img (yn + 1) xn) (grey img p + l_disco L)) as [C8|C8];
    [|apply SAME; left; apply (NOB (xn, yn + 1)); [unfold neighbour; cbn; auto|exact C8]].
  destruct (Z.leb_spec (im_px img yn (xn - 1)) (grey img p + l_disco L)) as [C9|C9];
    [|apply SAME; left; apply (NOB (xn - 1, yn)); [unfold neighbour; cbn; auto|exact C9]].
  destruct (Z.leb_spec (im_px img yn (xn + 1)) (grey img p + l_disco L)) as [C10|C10];
    [|apply SAME; left; apply (NOB (xn + 1, yn)); [unfold neighbour; cbn; auto|exact C10]].
  (* accepted *)
  assert (AD : admits img L p (xn, yn)).
  { split; auto. split; [split; cbn; lia|]. split; [exact C1|]. split; [exact C6|].
    intros r [->|[->|[->| ->]]]; unfold grey at 1; cbn [fst snd]; lia. }
  assert (NT : ~ In (xn, yn) T0) by (intros X; apply NI; apply in_or_app; now left).
  assert (NR : ~ In (xn, yn) (P ++ Q)) by (intros X; apply NI; apply in_or_app; now right).
  assert (ND' : NoDup (P ++ Q ++ [(xn, yn)])).
  { rewrite app_assoc. apply NoDup_Add with (a := (xn, yn)) (l := P ++ Q); [|split; auto].
    pose proof (Add_app (xn, yn) (P ++ Q) []) as AA. now rewrite app_nil_r in AA. }
  assert (IR' : forall q, In q (P ++ Q ++ [(xn, yn)]) -> in_range L q).
  { intros q Hq. rewrite app_assoc in Hq. apply in_app_or in Hq as [Hq|[<-|[]]]; [auto|]. apply AD. }
  assert (RE' : forall q, In q (P ++ Q ++ [(xn, yn)]) -> reach img L (fun p => ~ In p T0) s q).
  { intros q Hq. rewrite app_assoc in Hq. apply in_app_or in Hq as [Hq|[<-|[]]]; auto. eapply reach_grow; eauto. }
  pose proof (CAP s _ ND' (fun q Hq => reach_any _ s q (RE' q Hq))) as AB. rewrite !app_length in AB. cbn [length] in AB.
  destruct WA as (W1 & W2 & (z & W3)).
  rewrite iset_in by (rewrite ?ZH, ?ZW; lia). cbn [bind].
  rewrite pyset_in_range by (rewrite W1, W2; lia). cbn [bind]. rewrite W1, Nat2Z.id.
  eexists. exists [(xn, yn)]. split; [reflexivity|]. split; [|intros _; right; rewrite app_assoc; apply in_or_app; right; now left].
  destruct ST as (S1 & S2 & S3 & S4 & S5 & S6).
  split; [|split; [exact ND'|split; [|split; [|split; [exact IR'|split]]]]]; cbn [g_img0 g_sumg g_numpix g_xa g_xb g_ya g_yb g_x g_y g_wait g_nwait].
  - apply (zeroed_set _ _ xn yn) in Z0. eapply zeroed_more; [|exact Z0]. intros r. rewrite !in_app_iff. tauto.
  - intros q Hq. rewrite app_assoc in Hq. apply in_app_or in Hq as [Hq|[<-|[]]]; auto.
  - exact RE'.
  - rewrite app_assoc. unfold stats. set (R := P ++ Q) in *. clearbody R. rewrite !map_app, !zsum_app. cbn [map zsum fold_right g_sumg g_numpix g_xa g_xb g_ya g_yb g_x g_y fst snd].
    split; [rewrite S1; unfold grey; cbn [fst snd]; fold gv; lia|]. split; [rewrite app_length; simpl; unfold pixel in *; lia|].
    split; [apply span_snoc; exact S3|]. split; [apply span_snoc; exact S4|].
    change (excess img L (xn, yn)) with (gv - l_thres L). split; [rewrite S5|rewrite S6]; unfold zsum; cbn [fold_right]; rewrite Z.add_0_r; reflexivity.
  - split; [cbn [g_nwait]; rewrite app_length; simpl; lia|]. cbn [g_wait]. split; [now rewrite upd_length|].
    rewrite W3. destruct z as [|z0 z].
    + exfalso. rewrite W3, app_nil_r in W2. unfold pixel in *; lia.
    + exists z. rewrite upd_app_len. rewrite <- app_assoc. reflexivity.
Qed.

Lemma visit_fold T0 s P p l : forall Q st, GInv T0 s P Q st -> In p (P ++ Q) -> (forall q, In q l -> neighbour p q) ->
  exists st' e, foldM (visit img L (grey img p)) l st = Ok st' /\ GInv T0 s P (Q ++ e) st' /\
    (forall q, In q l -> admits img L p q -> In q T0 \/ In q (P ++ Q ++ e)).
Proof.
  induction l as [|q l IH]; intros Q st G Hp HN.
  - exists st, []. rewrite !app_nil_r. split; auto. split; auto. intros q [].
  - destruct (visit_ok T0 s P Q st p q G Hp (HN q (or_introl eq_refl))) as (st1 & e1 & E1 & G1 & A1).
    destruct (IH (Q ++ e1) st1 G1) as (st2 & e2 & E2 & G2 & A2).
    + rewrite app_assoc. apply in_or_app. now left.
    + intros r Hr. apply HN. now right.
    + exists st2, (e1 ++ e2). cbn [foldM]. rewrite E1. cbn [bind]. rewrite E2. split; auto. rewrite <- app_assoc in G2. split; auto.
      intros r [<-|Hr] Ha.
      * destruct (A1 Ha) as [X|X]; [now left|right]. rewrite !in_app_iff in *. tauto.
      * destruct (A2 r Hr Ha) as [X|X]; [now left|right]. rewrite !in_app_iff in *. tauto.
Qed.

(** everything a processed pixel admits is taken *)
Definition closed (T0 P R : list pixel) : Prop := forall p q, In p P -> admits img L p q -> In q T0 \/ In q R.

Lemma round_ok T0 s P p Q st : GInv T0 s P (p :: Q) st -> closed T0 P (P ++ p :: Q) ->
  exists st' e, round img L st = Ok st' /\ GInv T0 s (P ++ [p]) (Q ++ e) st' /\ closed T0 (P ++ [p]) ((P ++ [p]) ++ Q ++ e).
Proof.
  intros G CL. pose proof G as (Z0 & ND & DJ & RE & IR & ST & (W1 & W2 & (z & W3))). unfold round. rewrite W3.
  change (pyget ((p :: Q) ++ z) 0) with (Ok p). cbn [bind]. destruct p as [x0 y0].
  assert (Hp : In (x0, y0) (P ++ (x0, y0) :: Q)) by (apply in_or_app; right; now left).
  pose proof (IR _ Hp) as ((X1 & X2) & (Y1 & Y2)). cbn [fst snd] in *. destruct RO as (R1 & R2 & R3 & R4).
  rewrite iget_in by lia. cbn [bind].
  destruct (visit_fold T0 s P (x0, y0) [(x0 - 1, y0); (x0 + 1, y0); (x0, y0 - 1); (x0, y0 + 1)] ((x0, y0) :: Q) st G Hp) as (st1 & e & E1 & G1 & A1).
  { intros q [<-|[<-|[<-|[<-|[]]]]]; unfold neighbour; cbn; auto. }
  change (grey img (x0, y0)) with (im_px img y0 x0) in E1. rewrite E1. cbn [bind].
  destruct G1 as (Z1 & ND1 & DJ1 & RE1 & IR1 & ST1 & (V1 & V2 & (z1 & V3))).
  rewrite V1, V3. cbn [app length]. replace (Z.of_nat (S (length (Q ++ e))) - 1) with (Z.of_nat (length (Q ++ e))) by lia.
  rewrite shift_ok. cbn [bind]. eexists. exists e. split; [reflexivity|].
  assert (EQ : (P ++ @cons pixel (x0, y0) nil) ++ Q ++ e = P ++ (@cons pixel (x0, y0) Q) ++ e) by (rewrite <- app_assoc; reflexivity).
  split.
  - unfold GInv. cbn [g_img0 g_sumg]. rewrite EQ. split; [exact Z1|]. split; auto. split; auto. split; auto. split; auto. split; [exact ST1|].
    split; [reflexivity|]. cbn [g_wait]. split; [|eauto].
    rewrite V3 in V2. cbn [app length] in V2. rewrite !app_length in *. simpl in *. unfold pixel in *. lia.
  - rewrite EQ. intros p q Hp' Ha. apply in_app_or in Hp' as [Hp'|[<-|[]]].
    + destruct (CL p q Hp' Ha) as [X|X]; [now left|right]. rewrite !in_app_iff in *. tauto.
    + apply (A1 q); auto. destruct Ha as ([->|[->|[->| ->]]] & _); cbn; auto.
Qed.

Lemma rounds_ok T0 s fuel : forall P Q st, GInv T0 s P Q st -> closed T0 P (P ++ Q) ->
  im_h img * im_w img + 1 <= Z.of_nat fuel + Z.of_nat (length P) ->
  exists st' R, rounds img L fuel st = Ok st' /\ GInv T0 s R [] st' /\ closed T0 R R /\ incl (P ++ Q) R.
Proof.
  assert (AR : 0 <= im_h img -> 0 <= im_w img -> area L <= im_h img * im_w img).
  { intros H1 H2. destruct RO as (R1 & R2 & R3 & R4). unfold area. nia. }
  induction fuel as [|fuel IH]; intros P Q st G CL HF.
  - assert (Q = []) as ->.
    { destruct Q as [|q Q]; auto. exfalso. destruct G as (_ & ND & _ & _ & IR & _). pose proof (area_bound _ ND IR) as AB.
      rewrite app_length in AB. cbn [length] in AB. assert (Hq : In q (P ++ q :: Q)) by (apply in_or_app; right; now left).
      apply IR in Hq as ((A1 & A2) & (A3 & A4)). destruct RO as (R1 & R2 & R3 & R4). specialize (AR ltac:(lia) ltac:(lia)). lia. }
    pose proof G as (_ & _ & _ & _ & _ & _ & (W1 & _)). cbn [length] in W1. cbn [rounds]. rewrite W1. exists st, P.
    rewrite app_nil_r in *. split; auto. split; auto. split; auto. apply incl_refl.
  - destruct Q as [|p Q].
    + pose proof G as (_ & _ & _ & _ & _ & _ & (W1 & _)). cbn [length] in W1. cbn [rounds]. rewrite W1. exists st, P.
      rewrite app_nil_r in *. split; auto. split; auto. split; auto. apply incl_refl.
    + pose proof G as (_ & _ & _ & _ & _ & _ & (W1 & _)). cbn [length] in W1. cbn [rounds]. rewrite W1, Z.gtb_ltb.
      destruct (Z.ltb_spec 0 (Z.of_nat (S (length Q)))); [|lia].
      destruct (round_ok T0 s P p Q st G CL) as (st1 & e & E1 & G1 & C1). rewrite E1. cbn [bind].
      destruct (IH _ _ _ G1 C1) as (st2 & R & E2 & G2 & C2 & I2).
      * rewrite app_length. cbn [length]. lia.
      * exists st2, R. split; auto. split; auto. split; auto. intros q Hq. apply I2. rewrite !in_app_iff in *. cbn [In] in *. tauto.
Qed.
End Grow.
