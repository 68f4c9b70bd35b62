(** Clear trajectories are reported unbroken over a whole run (C78). *)
From Coq Require Import Permutation.
From Verif Require Import Base Lib F64 Model_corr Model_cand Spec_cand Model_track Spec_track Spec_track2 Spec_trail
  Proof_track_search Proof_track_step Proof_track_just Proof_track_found Prop_track Prop_track2 Prop_track3
  Model_fb Spec_fb Proof_fb Proof_fb_run.
Local Open Scope Z_scope.

(** the same particles and targets; links may differ *)
Definition scene (f r : frame) : Prop :=
  fr_num f = fr_num r /\ fr_targ f = fr_targ r /\ fr_numt f = fr_numt r /\ fr_corr f = fr_corr r /\
  map p_x (fr_path f) = map p_x (fr_path r).
Lemma scene_refl f : scene f f. Proof. repeat (split; auto). Qed.
Lemma scene_trans f g h : scene f g -> scene g h -> scene f h.
Proof. intros (A1 & A2 & A3 & A4 & A5) (B1 & B2 & B3 & B4 & B5). split; [congruence|]. split; [congruence|]. split; [congruence|]. split; congruence. Qed.
Lemma scene_len f r : scene f r -> length (fr_path f) = length (fr_path r).
Proof. intros (_ & _ & _ & _ & E). apply (f_equal (@length _)) in E. now rewrite !map_length in E. Qed.
Lemma scene_nth f r i p : scene f r -> nth_error (fr_path f) i = Some p -> exists q, nth_error (fr_path r) i = Some q /\ p_x q = p_x p.
Proof.
  intros (_ & _ & _ & _ & E) H. apply (f_equal (fun l => nth_error l i)) in E. rewrite !nth_error_map, H in E. cbn in E.
  destruct (nth_error (fr_path r) i) as [q|]; [|discriminate]. injection E as E. eauto.
Qed.
Lemma scene_sym f g : scene f g -> scene g f.
Proof. intros (A1 & A2 & A3 & A4 & A5). repeat (split; auto). Qed.
Lemma scene_ok f r : scene f r -> frame_ok r -> frame_ok f.
Proof. intros S (A & B). pose proof (scene_len _ _ S). destruct S as (S1 & S2 & _). split; [rewrite S1, A; lia|]. rewrite S2. exact B. Qed.
Lemma scene_searchable n f r : scene f r -> searchable n r -> searchable n f.
Proof. intros S H. pose proof (scene_len _ _ S) as L. destruct S as (_ & S2 & S3 & _). unfold searchable. rewrite S2, S3, L. exact H. Qed.
Lemma scene_looked n ptp f r h hp x1 x2 px : scene f r -> looked_at n ptp r h hp x1 x2 px -> looked_at n ptp f h hp x1 x2 px.
Proof. intros (_ & S2 & _ & S4 & _). unfold looked_at. now rewrite S2, S4. Qed.
Lemma scene_convincing pixdist n imx imy ptp quader sub angle tp f r hp x1 x2 x3 x5 : scene f r ->
  convincing pixdist n imx imy ptp quader sub angle tp r hp x1 x2 x3 x5 ->
  convincing pixdist n imx imy ptp quader sub angle tp f hp x1 x2 x3 x5.
Proof.
  intros S [A B C|m q px Q L P V W M]; [now apply past_fits|]. destruct (scene_nth _ _ _ _ (scene_sym _ _ S) Q) as (q' & Q' & E). rewrite <- E in *.
  eapply future_fits with (px := px); eauto. destruct S as (_ & S2 & _). unfold seen_everywhere in *. now rewrite S2.
Qed.

Section Step.
Variable psort : list (f64 * Z) -> list (f64 * Z).
Hypothesis psort_perm : forall l, Permutation l (psort l).
Variable pixdist : f64 -> f64 -> f64 -> f64 -> f64.
Variable ncam : nat.
Hypothesis ncam_ok : (2 <= ncam <= 4)%nat.
Variables imx imy : Z.
Variable ptp : Z -> vec -> f64 * f64.
Variable quader : Z -> vec -> f64 * f64 * f64 * f64.
Variable moving : vec -> vec -> vec.
Variable extrap : vec -> vec -> vec -> vec.
Variable sub : vec -> vec -> vec.
Variable norm : vec -> vec -> f64.
Variable angle : vec -> vec -> vec -> f64 * f64.
Variable flat : Z -> f64 -> f64 -> f64 * f64.
Variable point : list (f64 * f64) -> vec.
Variable tp : tpar.
Variable vl : vol.
Hypothesis no_add : do_add tp = false.
Local Notation fstep := (trackcorr_step psort pixdist (Z.of_nat ncam) imx imy ptp quader moving extrap sub norm angle flat point tp vl).

(** without adding particles a step changes nothing but links *)
Lemma step_scene buf0 b1 b2 b3 c1 c2 c3 cnt : frame_ok b1 -> frame_ok b2 -> frame_ok b3 -> searchable ncam b2 -> searchable ncam b3 ->
  (forall p, In p (fr_path b1) -> p_next p = NEXT_NONE) ->
  (forall p, In p (fr_path b2) -> fresh_particle p) ->
  fstep buf0 b1 b2 b3 = Ok (c1, c2, c3, cnt) -> scene c1 b1 /\ scene c2 b2 /\ c3 = b3.
Proof.
  intros F1 F2 F3 S2 S3 N1 N2 H. pose proof H as H'.
  apply (trackcorr_step_links psort psort_perm pixdist ncam ltac:(lia)) in H' as (_ & L1 & K1 & _ & (l & E2) & (l3 & E3 & _) & _ & G2 & _); auto.
  unfold Model_track.trackcorr_step in H. apply bind_ok in H as ([[d1 d2] d3] & Ht & H).
  pose proof Ht as Hf. apply (track_all_found pixdist ncam ncam_ok) in Hf as (-> & -> & _); auto.
  apply (track_all_ok pixdist ncam ltac:(lia)) in Ht as (A1 & A2 & A3 & A4 & A5 & A6 & A7 & A8); auto.
  apply bind_ok in H as (cur & Hd & H). apply bind_ok in H as ([[cur' nxt'] cnt'] & Hl & H). injection H as <- <- <- <-.
  cbn [set_path fr_path] in *. injection A7 as Y1 Y2 Y3. split; [|split; auto].
  - split; [exact A6|]. split; [exact Y2|]. split; [exact Y3|]. split; [exact Y1|]. cbn [set_path fr_path].
    apply nth_error_ext. intros i. rewrite !nth_error_map. destruct (nth_error (fr_path b1) i) as [p|] eqn:Ep.
    + destruct (K1 i p Ep) as (q & -> & Hq & _). cbn. now rewrite Hq.
    + assert (nth_error cur' i = None) as -> by (apply nth_error_None; apply nth_error_None in Ep; lia). reflexivity.
  - split; auto. split; auto. split; auto. split; auto. cbn [set_path fr_path].
    destruct G2 as (G2 & _). destruct F2 as (F2 & _). cbn [set_path fr_num fr_path] in G2.
    pose proof (f_equal (@length _) E2) as X. rewrite app_length, !map_length in X. destruct l; [now rewrite app_nil_r in E2|]. cbn in X. lia.
Qed.

Lemma step_links' buf0 b1 b2 b3 c1 c2 c3 cnt : frame_ok b1 -> frame_ok b2 -> frame_ok b3 ->
  (forall p, In p (fr_path b1) -> p_next p = NEXT_NONE) ->
  (forall p, In p (fr_path b2) -> fresh_particle p) ->
  fstep buf0 b1 b2 b3 = Ok (c1, c2, c3, cnt) ->
  mutual (fr_path c1) (fr_path c2) /\ length (fr_path c1) = length (fr_path b1) /\
  (forall h p, nth_error (fr_path b1) h = Some p -> exists q, nth_error (fr_path c1) h = Some q /\ p_x q = p_x p /\ p_prev q = p_prev p) /\
  (forall p, In p (fr_path c2) -> p_next p = NEXT_NONE).
Proof.
  intros F1 F2 F3 N1 N2 H. apply (trackcorr_step_links psort psort_perm pixdist ncam ltac:(lia)) in H as (A & B & C & E & _); auto.
Qed.

Section Run.
Variable D : Type.
Variable parse : bool -> D -> result frame.
Variable store : frame -> D.

Variables first last : Z.
Hypothesis Hl : first < last.
Variables e0 e1 e2 e3 : frame.
Variable d0 : disk D.
Variable R : Z -> frame.
Hypothesis reads : forall n, first <= n <= Z.max last (first + 2) -> parse false (d0 n) = Ok (R n) /\ frame_ok (R n) /\
  (forall p, In p (fr_path (R n)) -> fresh_particle p) /\ searchable ncam (R n).
Hypothesis He : last <= first + 2 -> frame_ok e2 /\ searchable ncam e2.

Theorem run_trail buf d1 nl :
  full_forward frame D parse store fstep first last ([e0; e1; e2; e3], d0) = Ok ((buf, d1), nl) ->
  exists W, (forall s, first <= s <= last -> d1 s = store (W s) /\ scene (W s) (R s)) /\
    forall k x, clear_trail pixdist ncam imx imy ptp quader moving extrap sub angle flat point tp vl first last R e2 k x ->
    forall s, first <= s < last -> next_of (fr_path (W s)) (k s) = Z.of_nat (k (s + 1)) /\ prev_of (fr_path (W (s + 1))) (k (s + 1)) = Z.of_nat (k s).
Proof.
  intros H. apply forward_ok in H as (A & B & C & E & N & A0 & HH & HW & HWl & HO & _); auto.
  destruct HH as (P1 & P2 & P3 & HS).
  assert (RD : forall n f, first <= n <= Z.max last (first + 2) -> parse false (d0 n) = Ok f -> f = R n).
  { intros n f Hn Hf. destruct (reads n Hn) as (X & _). congruence. }
  set (ah := ahead first last R e2).
  assert (G : forall n s, s = first + Z.of_nat n -> s <= last ->
     scene (B s) (R s) /\ (s < last -> C s = R (s + 1)) /\ (s < last -> scene (E s) (ah s)) /\ (s < last -> frame_ok (ah s) /\ searchable ncam (ah s)) /\
     (first < s -> scene (A s) (R (s - 1))) /\
     (forall p, In p (fr_path (B s)) -> p_next p = NEXT_NONE) /\
     (s = first -> B s = R s)).
  { induction n as [|n IH]; intros s -> Hs.
    - rewrite Z.add_0_r. apply RD in P1; [|lia]. apply RD in P2; [|lia]. apply RD in P3; [|lia]. rewrite P1, P2, P3.
      split; [apply scene_refl|]. split; auto. unfold ah, ahead. rewrite Z.eqb_refl. cbn [orb]. split; [intros; apply scene_refl|].
      split; [intros; split; apply reads; lia|].
      split; [lia|]. split; [|auto]. intros p Hp. destruct (reads first ltac:(lia)) as (_ & _ & X & _). now apply X.
    - set (s := first + Z.of_nat n). replace (first + Z.of_nat (Datatypes.S n)) with (s + 1) in * by (unfold s; lia).
      assert (Hs' : first <= s < last) by (unfold s in *; lia).
      destruct (IH s eq_refl ltac:(lia)) as (I1 & I2 & I3 & I4 & I5 & I6 & I7). specialize (I2 ltac:(lia)). specialize (I3 ltac:(lia)).
      destruct (I4 ltac:(lia)) as (I4a & I4b). clear I4. clearbody s. clear IH.
      destruct (HS s Hs') as (S1 & S2).
      destruct (reads s ltac:(lia)) as (_ & RO & RF & RS). destruct (reads (s + 1) ltac:(lia)) as (_ & RO1 & RF1 & RS1).
      pose proof (scene_ok _ _ I1 RO) as FB. pose proof (scene_ok _ _ I3 I4a) as FE. pose proof (scene_searchable _ _ _ I3 I4b) as SE.
      rewrite I2 in S1.
      destruct (step_scene _ _ _ _ _ _ _ _ FB RO1 FE RS1 SE I6 RF1 S1) as (Q1 & Q2 & Q3).
      pose proof (step_links' _ _ _ _ _ _ _ _ FB RO1 FE I6 RF1 S1) as (_ & _ & _ & L4).
      split; auto. split; [|split; [|split; [|split; [|split; [exact L4|lia]]]]].
      + intros Hn. rewrite Q3. (* slot 2 of the next step *)
        destruct (Z.eqb_spec s first) as [->|Ns].
        * apply RD in P3; [|lia]. rewrite P3. now rewrite <- Z.add_assoc.
        * destruct (Z.eqb_spec (s - 1 + 3) (s + 2)) as [_|]; [|lia].
          destruct (HS (s - 1) ltac:(lia)) as (_ & S2'). replace (s - 1 + 1) with s in S2' by lia. replace (s - 1 + 3) with (s + 2) in S2' by lia.
          destruct (Z.leb_spec (s + 2) last); [|lia]. apply RD in S2'; [|lia]. rewrite S2'. now rewrite <- Z.add_assoc.
      + intros Hn. unfold ah, ahead. destruct (Z.eqb_spec (s + 1) first); [lia|]. cbn [orb]. replace (s + 1 + 2) with (s + 3) by lia.
        destruct (Z.leb_spec (s + 3) last).
        * apply RD in S2; [|lia]. rewrite S2. apply scene_refl.
        * rewrite S2. destruct (Z.leb_spec first (s + 1 - 2)).
          -- replace (s + 1 - 2) with (s - 1) by lia. apply I5. lia.
          -- assert (s = first) as -> by lia. rewrite A0. apply scene_refl.
      + intros Hn. unfold ah, ahead. destruct (Z.eqb_spec (s + 1) first); [lia|]. cbn [orb].
        destruct (Z.leb_spec (s + 1 + 2) last); [split; apply reads; lia|]. destruct (Z.leb_spec first (s + 1 - 2)); [split; apply reads; lia|apply He; lia].
      + intros _. replace (s + 1 - 1) with s by lia. eapply scene_trans; eauto. }
  assert (G' : forall s, first <= s <= last -> scene (B s) (R s) /\ (first < s -> scene (A s) (R (s - 1))) /\
     (s < last -> forall j, prev_of (fr_path (A (s + 1))) j = prev_of (fr_path (B s)) j)).
  { intros s Hs. destruct (G (Z.to_nat (s - first)) s ltac:(lia) ltac:(lia)) as (I1 & I2 & I3 & I4 & I5 & I6 & I7). split; auto. split; auto.
    intros Hn. destruct (HS s ltac:(lia)) as (S1 & _). specialize (I2 Hn). specialize (I3 Hn). destruct (I4 Hn) as (I4a & I4b).
    destruct (reads s ltac:(lia)) as (_ & RO & RF & RS). destruct (reads (s + 1) ltac:(lia)) as (_ & RO1 & RF1 & RS1).
    pose proof (scene_ok _ _ I1 RO) as FB. pose proof (scene_ok _ _ I3 I4a) as FE. rewrite I2 in S1.
    pose proof (step_links' _ _ _ _ _ _ _ _ FB RO1 FE I6 RF1 S1) as (_ & L2 & L3 & _).
    apply prev_of_same; [now symmetry|]. intros h p Hp. destruct (L3 h p Hp) as (q & Q1 & _ & Q2). eauto. }
  assert (T : forall k x, clear_trail pixdist ncam imx imy ptp quader moving extrap sub angle flat point tp vl first last R e2 k x ->
     forall n s, s = first + Z.of_nat n -> s <= last ->
     first < s -> next_of (fr_path (A s)) (k (s - 1)) = Z.of_nat (k s) /\ prev_of (fr_path (B s)) (k s) = Z.of_nat (k (s - 1))).
  { intros k x (TX & TS). induction n as [|n IH]; intros s -> Hs; [lia|]. intros _.
    set (s := first + Z.of_nat n). replace (first + Z.of_nat (Datatypes.S n)) with (s + 1) in * by (unfold s; lia).
    assert (Hs' : first <= s < last) by (unfold s in *; lia).
    destruct (G n s eq_refl ltac:(lia)) as (I1 & I2 & I3 & I4 & I5 & I6 & I7). specialize (I2 ltac:(lia)). specialize (I3 ltac:(lia)).
    destruct (I4 ltac:(lia)) as (I4a & I4b). clear I4. pose proof (IH s eq_refl ltac:(lia)) as I8. clearbody s. clear IH.
    destruct (HS s Hs') as (S1 & S2).
    destruct (reads s ltac:(lia)) as (_ & RO & RF & RS). destruct (reads (s + 1) ltac:(lia)) as (_ & RO1 & RF1 & RS1).
    pose proof (scene_ok _ _ I1 RO) as FB. pose proof (scene_ok _ _ I3 I4a) as FE. pose proof (scene_searchable _ _ _ I3 I4b) as SE.
    rewrite I2 in S1. replace (s + 1 - 1) with s by lia.
        destruct (TS s Hs') as ((px & LA & SV) & CV & U1 & U2).
        destruct (TX s ltac:(lia)) as (q & Hq & Eq). destruct (TX (s + 1) ltac:(lia)) as (r & Hr & Er).
        destruct (scene_nth _ _ _ _ (scene_sym _ _ I1) Hq) as (p & Hp & Ep).
        set (hp := first <? s) in *.
        assert (EH : hp = (0 <=? p_prev p)).
        { unfold hp. destruct (Z.ltb_spec first s) as [Lt|Ge].
          - destruct (I8 Lt) as (_ & X). unfold prev_of in X. rewrite Hp in X. lia.
          - assert (s = first) by lia. rewrite (I7 ltac:(lia)) in Hp. assert (p = q) as -> by congruence.
            apply nth_error_In in Hq. apply RF in Hq as (X & _). rewrite X. reflexivity. }
        set (x0 := x (s - 1)) in *. set (x2 := if hp then moving x0 (x s) else x s) in *.
        assert (PO : past_of moving (A s) p hp x0 x2).
        { split; auto. split.
          - intros Eh. unfold hp in Eh. destruct (I8 ltac:(lia)) as (_ & X). unfold prev_of in X. rewrite Hp in X. rewrite X, Nat2Z.id.
            destruct (TX (s - 1) ltac:(lia)) as (q1 & Hq1 & Eq1). destruct (scene_nth _ _ _ _ (scene_sym _ _ (I5 ltac:(lia))) Hq1) as (p1 & Hp1 & Ep1).
            exists p1. split; auto. split; [unfold x0; congruence|]. unfold x2. destruct hp; [|lia]. rewrite Ep, Eq. reflexivity.
          - intros Eh. unfold x2. rewrite Eh. congruence. }
        assert (XS : x s = p_x p) by congruence. rewrite XS in *. rewrite <- Er in *. clear Er XS.
        assert (Tg : fr_targ (E s) = fr_targ (ah s)) by (apply I3). assert (Px : map p_x (fr_path (E s)) = map p_x (fr_path (ah s))) by (apply I3).
        refine (C77_linked psort psort_perm pixdist ncam imx imy ptp quader moving extrap sub norm angle flat point tp vl ncam_ok no_add
          (A s) (B s) (R (s + 1)) (E s) (A (s + 1)) (B (s + 1)) (C (s + 1)) (N s) FB RO1 FE RS1 SE I6 RF1 S1 (k s) (k (s + 1)) p r hp x0 x2 px
          Hp Hr PO (scene_looked _ _ _ _ _ _ _ _ _ I1 LA) SV (scene_convincing _ _ _ _ _ _ _ _ _ _ _ _ _ _ _ _ I3 CV) _ _).
        * intros k' r' Hr' (hp' & y0 & y2 & PO' & J). apply (U1 k' r' Hr'). rewrite Tg, Px in J. fold ah in J.
          destruct PO as (_ & O1 & O2), PO' as (Eh' & O1' & O2'). rewrite <- EH in Eh'. subst hp'. unfold reasonable. fold ah.
          destruct hp.
          -- destruct (O1 eq_refl) as (z & Z1 & Z2 & Z3). destruct (O1' eq_refl) as (z' & Z1' & Z2' & Z3').
             assert (z' = z) as -> by congruence. rewrite <- Z2 in Z2'. subst y0. rewrite <- Z3'. exact J.
          -- rewrite <- (O2' eq_refl). rewrite <- (O2' eq_refl) in J at 1. rewrite (O2' eq_refl) in J |- *. exact J.
        * intros h' p' Hp' (hp' & y0 & y2 & (Eh' & O1' & O2') & J). rewrite Tg, Px in J.
          destruct (scene_nth _ _ _ _ I1 Hp') as (q' & Hq' & Eq'). rewrite <- Eq' in *.
          destruct hp'.
          -- destruct (O1' eq_refl) as (z & Z1 & Z2 & Z3). apply (U2 h' q' (Some y0) Hq').
             ++ assert (first < s).
                { destruct (Z.eq_dec s first) as [Es|]; [|lia]. exfalso. rewrite (I7 Es) in Hp'. assert (p' = q') as -> by congruence.
                  apply nth_error_In in Hq'. apply RF in Hq' as (X & _). rewrite X in Eh'. discriminate Eh'. }
                split; auto. destruct (scene_nth _ _ _ _ (I5 ltac:(lia)) Z1) as (z' & Z1' & Z4). apply in_map_iff. exists z'. split; [congruence|]. eapply nth_error_In; eauto.
             ++ unfold reasonable. fold ah. rewrite <- Z3. exact J.
          -- apply (U2 h' q' None Hq' I). unfold reasonable. fold ah. rewrite (O2' eq_refl) in J. exact J. }
  exists (fun s => if s <? last then A (s + 1) else B last). split.
  - intros s Hs. destruct (Z.ltb_spec s last).
    + split; [apply HW; lia|]. destruct (G' (s + 1) ltac:(lia)) as (_ & X & _). replace (s + 1 - 1) with s in X by lia. apply X. lia.
    + assert (s = last) as -> by lia. split; auto. apply (G' last); lia.
  - intros k x CT s Hs. destruct (G' (s + 1) ltac:(lia)) as (_ & _ & Y). pose proof (T k x CT (Z.to_nat (s + 1 - first)) (s + 1) ltac:(lia) ltac:(lia)) as X.
    replace (s + 1 - 1) with s in X by lia. destruct (X ltac:(lia)) as (X1 & X2).
    destruct (Z.ltb_spec s last); [|lia]. split; auto. destruct (Z.ltb_spec (s + 1) last).
    + rewrite Y by lia. exact X2.
    + assert (last = s + 1) as -> by lia. exact X2.
Qed.
End Run.
End Step.
