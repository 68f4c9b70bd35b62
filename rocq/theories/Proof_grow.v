(** What a tracking step may change when particles are added: frames grow at their ends, targets are only marked as used, and
    every new particle uses up at least one unused target. *)
From Coq Require Import Permutation.
From Verif Require Import Base Lib F64 Model_corr Model_cand Model_track Spec_track Spec_track2 Spec_io
  Proof_track_search Proof_track_step Proof_track_just Proof_unread Proof_keep Model_fb Spec_fb Proof_fb Proof_fb_run Proof_keep2.
Local Open Scope Z_scope.

(** unused targets of a list, of all cameras *)
Definition ucnt (l : list target) : nat := length (filter free l).
Definition usum (l : list (list target)) : nat := list_sum (map ucnt l).
Definition small (l : list (list target)) : Prop := forall tl, In tl l -> Z.of_nat (length tl) <= 2 ^ 31.
Definition rt (m : Z) (t t' : target) : Prop := t' = t \/ exists v, 0 <= v < m /\ t' = set_tnr t v.
Lemma rt_mono m m' t t' : m <= m' -> rt m t t' -> rt m' t t'.
Proof. intros H [->|(v & V & ->)]; [now left|]. right. exists v. split; auto. lia. Qed.
Lemma rt_trans m t t' t'' : rt m t t' -> rt m t' t'' -> rt m t t''.
Proof. intros [->|(v & V & ->)] [->|(u & U & ->)]; [now left|right; eauto|right; eauto|right; exists u; split; auto]. Qed.
Lemma FF_impl {A} (P Q : A -> A -> Prop) a b : (forall x y, P x y -> Q x y) -> Forall2 (Forall2 P) a b -> Forall2 (Forall2 Q) a b.
Proof. intros H F. induction F as [|x y l m G F IH]; constructor; auto. clear -H G. induction G; constructor; auto. Qed.
Lemma FF_len {A} (P : A -> A -> Prop) a b : Forall2 (Forall2 P) a b -> map (@length A) b = map (@length A) a.
Proof. intros F. induction F as [|x y l m G F IH]; cbn; [reflexivity|]. rewrite IH, (F2_len _ _ _ G). reflexivity. Qed.
Lemma small_len a b : map (@length target) b = map (@length target) a -> small a -> small b.
Proof.
  intros E H tl Ht. assert (I : In (length tl) (map (@length target) b)) by now apply in_map. rewrite E in I. apply in_map_iff in I as (x & E1 & I). rewrite <- E1. now apply H.
Qed.
Lemma usum_upd l k tl tl' : nth_error l k = Some tl -> (usum (upd l k tl') + ucnt tl = usum l + ucnt tl')%nat.
Proof.
  unfold usum, list_sum. revert k. induction l as [|x l IH]; intros [|k] H; cbn in H; try discriminate.
  - injection H as ->. cbn [upd map fold_right]. lia.
  - specialize (IH k H). cbn [upd map fold_right]. lia.
Qed.
Lemma ucnt_upd l k t v : nth_error l k = Some t -> 0 <= v -> (ucnt (upd l k (set_tnr t v)) + (if free t then 1 else 0) = ucnt l)%nat.
Proof.
  intros H V. unfold ucnt. revert k H. induction l as [|x l IH]; intros [|k] H; cbn in H; try discriminate.
  - injection H as ->. cbn [upd filter]. assert (E : free (set_tnr t v) = false) by (unfold free; cbn [set_tnr t_tnr]; lia). rewrite E. destruct (free t); cbn [length]; lia.
  - specialize (IH k H). cbn [upd filter]. destruct (free x); cbn [length]; lia.
Qed.

Section Grow.
Variable psort : list (f64 * Z) -> list (f64 * Z).
Hypothesis psort_perm : forall l, Permutation l (psort l).
Variable pixdist : f64 -> f64 -> f64 -> f64 -> f64.
Variable ncam : nat.
Hypothesis ncam_ok : (1 <= ncam <= 4)%nat.
Variables imx imy : Z.
Variable ptp : Z -> vec -> f64 * f64.
Variable quader : Z -> vec -> f64 * f64 * f64 * f64.
Variable moving : vec -> vec -> vec.
Variable extrap : vec -> vec -> vec -> vec.
Variable sub : vec -> vec -> vec.
Variable norm : vec -> vec -> f64.
Variable angle : vec -> vec -> vec -> f64 * f64.
Variable flat : Z -> f64 -> f64 -> f64 * f64.
Variable point : list (f64 * f64) -> vec.
Variable tp : tpar.
Variable vl : vol.
Let nc := Z.of_nat ncam.
Local Notation assess := (assess_new_position pixdist nc imx imy ptp flat).
Local Notation second_loop := (second_loop sub norm angle tp vl).
Local Notation first_body := (first_body pixdist nc imx imy ptp quader moving extrap sub norm angle flat point tp vl).
Local Notation track_one := (track_one pixdist nc imx imy ptp quader moving extrap sub norm angle flat point tp vl).
Local Notation fstep := (trackcorr_step psort pixdist nc imx imy ptp quader moving extrap sub norm angle flat point tp vl).

Definition newp (p : pinfo) : Prop := p_prio p = PRIO_DEFAULT /\ tame p /\ exists v, p_x p = point v.
Definition Gf (f g : frame) : Prop :=
  (exists l1 l2, fr_path g = l1 ++ l2 /\ Forall2 Kp (fr_path f) l1 /\ Forall newp l2) /\
  (length (fr_corr g) + length (fr_path f) = length (fr_corr f) + length (fr_path g))%nat /\
  (small (fr_targ f) -> Forall corres_ok (fr_corr f) -> Forall corres_ok (fr_corr g)) /\
  fr_numt g = fr_numt f /\
  Forall2 (Forall2 (rt (Z.of_nat (length (fr_path g))))) (fr_targ f) (fr_targ g) /\
  (length (fr_path g) + usum (fr_targ g) <= length (fr_path f) + usum (fr_targ f))%nat /\
  (length (fr_path g) = length (fr_path f) -> Kf f g).
Lemma Gf_long f g : Gf f g -> (length (fr_path f) <= length (fr_path g))%nat.
Proof. intros ((l1 & l2 & E & F & _) & _). rewrite E, app_length, (F2_len _ _ _ F). lia. Qed.
Lemma Kf_Gf f g : Kf f g -> Gf f g.
Proof.
  intros K. pose proof (Kf_len _ _ K) as L. pose proof K as K0. destruct K as (K1 & K2 & K3 & K4 & K5). split; [exists (fr_path g), []; rewrite app_nil_r; auto|].
  split; [rewrite K2; lia|]. split; [now rewrite K2|]. split; auto. rewrite K3, L. split; [|split; auto]. apply Proof_track_just.F2_refl. intros l. apply Proof_track_just.F2_refl. intros t. now left.
Qed.
Lemma Gf_refl f : Gf f f. Proof. apply Kf_Gf, Kf_refl. Qed.
Lemma Kp_newp p q : Kp p q -> newp p -> newp q.
Proof. intros (A & B & C) (D & E & v & F). split; [congruence|]. split; [auto|]. exists v. congruence. Qed.
Lemma newp_all l m : Forall2 Kp l m -> Forall newp l -> Forall newp m.
Proof. intros H. induction H; intros F; inversion F; subst; constructor; eauto using Kp_newp. Qed.
Lemma Gf_trans f g h : Gf f g -> Gf g h -> Gf f h.
Proof.
  intros G H. pose proof (Gf_long _ _ H) as LH. pose proof (Gf_long _ _ G) as LG. destruct G as ((l1 & l2 & A1 & A2 & A3) & B & C & D & E & F & Q). destruct H as ((m1 & m2 & A1' & A2' & A3') & B' & C' & D' & E' & F' & Q').
  split.
  - rewrite A1 in A2'. apply Forall2_app_inv_l in A2' as (m11 & m12 & X1 & X2 & ->). exists m11, (m12 ++ m2).
    rewrite A1', <- app_assoc. split; auto. split; [eapply Proof_keep.F2_trans; eauto|]. apply Forall_app. split; auto. eapply newp_all; eauto.
  - split; [lia|]. split; [intros S K; apply C'; auto; eapply small_len; [|exact S]; eapply FF_len; eauto|]. split; [congruence|]. split; [|split; [lia|intros X; eapply Kf_trans; [apply Q; lia|apply Q'; lia]]].
    assert (E2 : Forall2 (Forall2 (rt (Z.of_nat (length (fr_path h))))) (fr_targ f) (fr_targ g)) by (eapply FF_impl; [|exact E]; intros x y; apply rt_mono; lia).
    eapply Proof_track_just.F2_trans; [|exact E2|exact E']. intros x y z. apply Proof_track_just.F2_trans. intros a b c. apply rt_trans.
Qed.

(** a sighting by two cameras uses an unused target *)
Lemma assess_found x frm n fl inds : assess x frm = Ok (n, fl, inds) -> 1 <= n ->
  exists c ix tl t, (c < ncam)%nat /\ nth_error inds c = Some ix /\ 0 <= ix /\ nth_error (fr_targ frm) c = Some tl /\ nth_error tl (Z.to_nat ix) = Some t /\ free t = true.
Proof.
  unfold assess_new_position. intros H Hn. apply bind_ok in H as ([tpos inds'] & H1 & H).
  apply bind_ok in H as ([valid out] & H2 & H). injection H as <- <- <-. cbn [fst snd] in *.
  set (hit := fun (inds : list Z) (c : nat) => exists ix tl t, nth_error inds c = Some ix /\ 0 <= ix /\ nth_error (fr_targ frm) c = Some tl /\ nth_error tl (Z.to_nat ix) = Some t /\ free t = true).
  assert (A : length tpos = ncam /\ length inds' = ncam /\ forall c q, nth_error tpos c = Some q -> q = (COORD_UNUSED, COORD_UNUSED) \/ hit inds' c).
  { apply (foldM_inv (fun done '(tpos, inds) => length tpos = length done /\ length inds = length done /\ forall c q, nth_error tpos c = Some q -> q = (COORD_UNUSED, COORD_UNUSED) \/ hit inds c)) in H1.
    - rewrite zrange_length in H1. destruct H1 as (B1 & B2 & B3). unfold nc in *. split; [lia|]. split; [lia|auto].
    - split; auto. split; auto. intros [|c] q Hq; discriminate.
    - intros done cam rest [tp1 in1] [tp2 in2] Ez (B1 & B2 & B3) Hs.
      apply zrange_split in Ez as (_ & Hcam & Ecam). replace cam with (Z.of_nat (length done)) in * by lia.
      apply bind_ok in Hs as (tl & Htl & Hs). apply pyget_ok_iff in Htl; [|lia]. rewrite Nat2Z.id in Htl.
      apply bind_ok in Hs as (nt & _ & Hs). apply bind_ok in Hs as ([num ix] & Hr & Hs).
      assert (OLD : forall v w c q, (c < length tp1)%nat -> nth_error (tp1 ++ [w]) c = Some q -> q = (COORD_UNUSED, COORD_UNUSED) \/ hit (in1 ++ [v]) c).
      { intros v w c q Hc Hq. rewrite nth_error_app1 in Hq by auto. destruct (B3 c q Hq) as [->|(i & a & t & X & Y)]; [now left|]. right. exists i, a, t.
        rewrite nth_error_app1 by lia. auto. }
      apply rest_hit in Hr as [(-> & ->)|(-> & P & t & d & Ht & HH)].
      + change (0 >? 0) with false in Hs. cbn iota in Hs. injection Hs as <- <-. rewrite !app_length. cbn [length]. split; [lia|]. split; [lia|].
        intros c q Hq. destruct (Nat.lt_ge_cases c (length tp1)); [eauto|]. left.
        rewrite nth_error_app2 in Hq by auto. destruct (c - length tp1)%nat as [|[|]]; cbn in Hq; congruence.
      + change (1 >? 0) with true in Hs. cbn iota in Hs. rewrite (pyget_nonneg tl ix t) in Hs by auto. cbn [bind] in Hs.
        injection Hs as <- <-. rewrite !app_length. cbn [length]. split; [lia|]. split; [lia|].
        intros c q Hq. destruct (Nat.lt_ge_cases c (length tp1)); [eauto|]. right.
        rewrite nth_error_app2 in Hq by auto. destruct (c - length tp1)%nat as [|[|]] eqn:Ec; cbn in Hq; try discriminate.
        exists ix, tl, t. replace c with (length in1) by lia. rewrite nth_error_app2, Nat.sub_diag by lia. cbn. replace (length in1) with (length done) by lia.
        split; auto. split; auto. split; auto. split; auto. unfold target_hit in HH; destruct HH as (t' & _ & Q1 & Q2 & _). assert (t' = t) as -> by congruence. exact Q2. }
  destruct A as (A1 & A2 & A3).
  assert (B : valid <= 0 \/ exists c q, (c < ncam)%nat /\ nth_error tpos c = Some q /\ feq (fst q) COORD_UNUSED = false).
  { apply (foldM_inv (fun _ '(valid, _) => valid <= 0 \/ exists c q, (c < ncam)%nat /\ nth_error tpos c = Some q /\ feq (fst q) COORD_UNUSED = false)) in H2; [exact H2|cbn; left; lia|].
    intros done cam rest [v1 o1] [v2 o2] Ez I Hs. apply zrange_split in Ez as (_ & Hcam & _). apply bind_ok in Hs as (q & Hq & Hs). apply pyget_ok_iff in Hq; [|lia].
    destruct (negb (feq (fst q) COORD_UNUSED) && _) eqn:E; injection Hs as <- <-; auto. right. exists (Z.to_nat cam), q. apply andb_true_iff in E as (E & _). apply negb_true_iff in E.
    split; auto. unfold nc in *. lia. }
  destruct B as [B|(c & q & Q1 & Q2 & Q3)]; [lia|]. destruct (A3 c q Q2) as [->|(ix & tl & t & X)]; [discriminate|]. exists c, ix, tl, t. split; auto.
Qed.

Lemma resize_ok l : length (np_resize1 l) = S (length l) /\ (Forall corres_ok l -> Forall corres_ok (np_resize1 l)).
Proof.
  destruct l as [|r l]; cbn [np_resize1]; split.
  - reflexivity.
  - intros _. constructor; auto. split; [reflexivity|]. repeat constructor; unfold int32; lia.
  - rewrite app_length. cbn. lia.
  - intros F. apply Forall_app. split; auto. inversion F; auto.
Qed.
Lemma upd_F {A} (P : A -> Prop) l k v : Forall P l -> P v -> Forall P (upd l k v).
Proof. intros H. revert k. induction H; intros [|k] V; cbn; constructor; auto. Qed.
Lemma pyset_upd {A} (l : list A) i v l' : pyset l i v = Ok l' -> exists k, l' = upd l k v.
Proof. unfold pyset. destruct (pyidx _ _); [|discriminate]. intros H. injection H as <-. eauto. Qed.
Lemma pyget_range {A} (l : list A) i v : pyget l i = Ok v -> - Z.of_nat (length l) <= i < Z.of_nat (length l).
Proof.
  unfold pyget, pyidx. destruct (0 <=? i) eqn:E1; destruct (i <? 0) eqn:E2; try lia;
  repeat match goal with |- context [if ?b then _ else _] => destruct b eqn:? end; try discriminate; lia.
Qed.

Lemma add_Gf f x n v2 inds g : frame_ok f -> assess x f = Ok (n, v2, inds) -> 2 <= n ->
  add_particle nc f (point v2) inds = Ok g -> Gf f g.
Proof.
  intros (F1 & F2) HA Hn H. pose proof HA as HF. apply assess_found in HF as (c & ix & tl0 & t0 & C1 & C2 & C3 & C4 & C5 & C6); [|lia].
  apply assess_sighting in HA as (_ & HX).
  unfold add_particle in H. destruct (_ >? _); [discriminate|]. apply bind_ok in H as ([cor targ] & H & H'). injection H' as <-. cbn [fst snd].
  destruct (resize_ok (fr_corr f)) as (R1 & R2). set (m := fr_num f) in *.
  apply (foldM_inv (fun done '(cor, targ) => length cor = S (length (fr_corr f)) /\
     (small (fr_targ f) -> Forall corres_ok (fr_corr f) -> Forall corres_ok cor) /\
     Forall2 (Forall2 (rt (m + 1))) (fr_targ f) targ /\ (usum targ <= usum (fr_targ f))%nat /\ ((c < length done)%nat -> (usum targ + 1 <= usum (fr_targ f))%nat) /\
     forall k, (length done <= k)%nat -> nth_error targ k = nth_error (fr_targ f) k)) in H.
  - destruct H as (I1 & I2 & I3 & I4 & I5 & I6). rewrite zrange_length in I5. unfold Gf. cbn [fr_path fr_corr fr_numt fr_targ]. split; [|split; [|split; [|split; [|split; [|split]]]]]; auto.
    + exists (fr_path f), [new_pinfo (point v2)]. split; auto. split; [apply Proof_keep.F2_refl|]. constructor; auto. split; [reflexivity|]. split; [split; left; reflexivity|]. exists v2. reflexivity.
    + rewrite I1, app_length. cbn. lia.
    + rewrite app_length. cbn [length]. replace (Z.of_nat (length (fr_path f) + 1)) with (m + 1) by lia. exact I3.
    + rewrite app_length. cbn [length]. unfold nc in *. lia.
    + rewrite app_length. cbn [length]. lia.
  - split; auto. split; auto. split; [apply Proof_track_just.F2_refl; intros l; apply Proof_track_just.F2_refl; intros t; now left|]. split; auto. split; [cbn; lia|auto].
  - intros done cam rest [c0 t1] [c1 t2] Ez (I1 & I2 & I3 & I4 & I5 & I6) Hs. apply zrange_split in Ez as (_ & Hcam & Ecam). replace cam with (Z.of_nat (length done)) in * by lia.
    apply bind_ok in Hs as (row & _ & Hs). apply bind_ok in Hs as (c' & Hc' & Hs). apply bind_ok in Hs as (i & Hi & Hs). rewrite app_length. cbn [length].
    apply pyset_upd in Hc' as (k' & ->).
    assert (J1 : forall r, length (upd c0 k' r) = S (length (fr_corr f))) by (intros r; now rewrite upd_length).
    assert (J2 : small (fr_targ f) -> Forall corres_ok (fr_corr f) -> Forall corres_ok (upd c0 k' (mk_corres (co_nr row) (repeat CORRES_NONE 4)))).
    { intros S K. apply upd_F; auto. split; [reflexivity|]. repeat constructor; unfold int32, CORRES_NONE; lia. }
    pose proof (HX _ _ Hcam Hi) as Hi1. apply pyget_ok_iff in Hi; [|lia]. rewrite Nat2Z.id in Hi.
    destruct (Z.eqb_spec i PT_UNUSED) as [Eu|Nu].
    { injection Hs as <- <-. split; auto. split; auto. split; auto. split; auto. split; [|intros k Hk; apply I6; lia].
      intros Hc. apply I5. destruct (Nat.eq_dec c (length done)) as [->|]; [|lia]. exfalso. unfold PT_UNUSED in Eu. assert (i = ix) by congruence. lia. }
    apply bind_ok in Hs as (tl & Htl & Hs). apply bind_ok in Hs as (t & Ht & Hs). apply bind_ok in Hs as (tl' & Htl' & Hs).
    apply bind_ok in Hs as (targ' & Htg & Hs). apply bind_ok in Hs as (c'' & Hc'' & Hs). injection Hs as <- <-.
    apply pyset_ok in Htg as (LT & ->); [|lia]. rewrite Nat2Z.id in *. apply pyget_ok_iff in Htl; [|lia]. rewrite Nat2Z.id in Htl. apply pyset_upd in Hc'' as (k'' & ->).
    pose proof (pyget_range _ _ _ Ht) as RNG. destruct (pyset_at _ _ _ _ _ Ht Htl') as (k & Hk & ->).
    pose proof (usum_upd t1 (length done) tl (upd tl k (set_tnr t m)) Htl) as US. assert (M0 : 0 <= m) by lia. pose proof (ucnt_upd tl k t m Hk M0) as UC.
    split; [rewrite map_length, upd_length; auto|]. split; [|split; [|split; [|split]]].
    + intros S K. apply Forall_forall. intros y Hy. apply in_map_iff in Hy as (z & <- & Hz). cbn [co_p]. assert (CZ : corres_ok z); [|exact CZ].
      assert (Z : Forall corres_ok (upd (upd c0 k' (mk_corres (co_nr row) (repeat CORRES_NONE 4))) k'' (mk_corres (co_nr row) (repeat i 4)))).
      { apply upd_F; auto. split; [reflexivity|]. assert (X : int32 i); [|cbn [co_p repeat]; apply Forall_forall; intros w [<-|[<-|[<-|[<-|[]]]]]; exact X]. unfold int32.
        assert (Z.of_nat (length tl) <= 2 ^ 31). { apply (small_len (fr_targ f) t1); auto; [eapply FF_len; eauto|]. eapply nth_error_In; eauto. } lia. }
      rewrite Forall_forall in Z. auto.
    + apply Proof_track_just.F2_upd; auto. intros y Hy. destruct (F2_nth _ _ _ _ _ I3 Htl) as (y' & Hy' & R). assert (y' = y) as -> by congruence.
      apply Proof_track_just.F2_upd; auto. intros z Hz. destruct (F2_nth _ _ _ _ _ R Hk) as (z' & Hz' & R'). assert (z' = z) as -> by congruence.
      eapply rt_trans; [exact R'|]. right. exists m. split; auto. lia.
    + lia.
    + intros Hc. destruct (Nat.eq_dec c (length done)) as [->|]; [|lia]. assert (i = ix) as -> by congruence.
      rewrite I6 in Htl by lia. assert (tl0 = tl) as -> by congruence. apply pyget_ok_iff in Ht; auto. assert (t0 = t) as -> by congruence.
      rewrite C6 in UC. lia.
    + intros j Hj. rewrite nth_error_upd_neq by lia. apply I6. lia.
Qed.

Definition FI (b2 b3 : frame) (s : pinfo * frame * frame) : Prop := let '(_, buf2, buf3) := s in buf2 = b2 /\ frame_ok buf3 /\ Gf b3 buf3.
Lemma first_body_grow b2 b3 x0 x1 x2 f s s' : FI b2 b3 s -> first_body x0 x1 x2 f s = Ok s' -> FI b2 b3 s'.
Proof.
  destruct s as [[p buf2] buf3]. intros (-> & S4 & S5) H. unfold Model_track.first_body in H.
  apply bind_ok in H as (q & _ & H). apply bind_ok in H as (wn & _ & H). apply bind_ok in H as (p1 & _ & H).
  apply bind_ok in H as ([[quali v2] philf] & HA & H). apply bind_ok in H as ([p2 b3'] & Hp2 & H).
  assert (G : frame_ok b3' /\ Gf b3 b3').
  { destruct (Z.leb_spec 2 quali) as [HQ|HQ]; [|injection Hp2 as <- <-; auto].
    destruct (in_volume _ _ _ _ && _); [|injection Hp2 as <- <-; auto].
    destruct (angle _ _ _) as [an ac]. destruct (acceptable tp an ac); [|injection Hp2 as <- <-; auto].
    apply bind_ok in Hp2 as (p3 & _ & Hp2). destruct (do_add tp); [|injection Hp2 as <- <-; auto].
    apply bind_ok in Hp2 as (b4 & Hb4 & Hp2). injection Hp2 as <- <-.
    pose proof (add_Gf _ _ _ _ _ _ S4 HA HQ Hb4) as G. split; [|eapply Gf_trans; eauto].
    apply add_particle_ok in Hb4 as (C & _); auto. unfold nc; lia. }
  apply bind_ok in H as (p4 & _ & H). injection H as <-. split; auto.
Qed.
Lemma track_one_grow buf0 b1 b2 b3 h b1' b2' b3' : frame_ok b2 -> frame_ok b3 ->
  track_one buf0 (b1, b2, b3) h = Ok (b1', b2', b3') -> Gf b2 b2' /\ Gf b3 b3'.
Proof.
  intros F2 F3 H. unfold Model_track.track_one in H.
  apply bind_ok in H as (p & _ & H). apply bind_ok in H as (c & _ & H). apply bind_ok in H as ([[x0 x2] v1] & _ & H).
  apply bind_ok in H as (w & Hw & H). apply bind_ok in H as ([[p' b2x] b3x] & Hs & H). apply bind_ok in H as (path & _ & H). injection H as <- <- <-.
  destruct (_ =? 1); [injection Hs as <- <- <-; auto using Gf_refl|].
  apply bind_ok in Hs as ([[p1 b21] b31] & Hwh & Hs). apply (while_inv (FI b2 b3)) in Hwh.
  2:{ split; auto. split; auto. apply Gf_refl. }
  2:{ intros f s s1 _ _ HSI Hb. eapply first_body_grow; eauto. }
  destruct Hwh as (-> & S4 & S5).
  assert (BASE : Gf b2 b2 /\ Gf b3 b31) by auto using Gf_refl.
  destruct (_ && _); [|injection Hs as <- <- <-; auto].
  apply bind_ok in Hs as ([[quali v2] philf] & HA & Hs).
  destruct (Z.leb_spec 2 quali) as [HQ|HQ]; [|injection Hs as <- <- <-; auto].
  destruct (in_volume _ _ _ _ && _); [|injection Hs as <- <- <-; auto].
  destruct (angle _ _ _) as [an ac]. destruct (acceptable tp an ac); [|injection Hs as <- <- <-; auto].
  apply bind_ok in Hs as (p2 & _ & Hs). apply bind_ok in Hs as (b22 & Hb & Hs). injection Hs as <- <- <-.
  split; auto. eapply add_Gf; eauto.
Qed.
Lemma track_all_grow buf0 b1 b2 b3 l d1 d2 d3 : (forall h, In h l -> 0 <= h) -> frame_ok b2 -> frame_ok b3 ->
  foldM (track_one buf0) l (b1, b2, b3) = Ok (d1, d2, d3) -> Gf b2 d2 /\ Gf b3 d3.
Proof.
  revert b1 b2 b3. induction l as [|h l IH]; intros b1 b2 b3 Hl F2 F3 H; cbn [foldM] in H.
  - injection H as <- <- <-. auto using Gf_refl.
  - apply bind_ok in H as ([[a1 a2] a3] & Ha & H). pose proof Ha as Hg. apply track_one_grow in Hg as (G2 & G3); auto.
    apply (track_one_ok pixdist ncam ncam_ok) in Ha as (B1 & B2 & _); auto; [|apply Hl; now left].
    apply IH in H as (I2 & I3); auto; [split; eapply Gf_trans; eauto|intros k Hk; apply Hl; now right].
Qed.
Lemma step_grows buf0 b1 b2 b3 c1 c2 c3 cnt : frame_ok b1 -> frame_ok b2 -> frame_ok b3 ->
  fstep buf0 b1 b2 b3 = Ok (c1, c2, c3, cnt) -> Kf b1 c1 /\ Gf b2 c2 /\ Gf b3 c3 /\ frame_ok c1 /\ frame_ok c2 /\ frame_ok c3.
Proof.
  intros F1 F2 F3 H. unfold Model_track.trackcorr_step in H. apply bind_ok in H as ([[d1 d2] d3] & Ht & H).
  pose proof Ht as Hg. apply track_all_grow in Hg as (G2 & G3); auto; [|intros h Hh; apply In_zrange in Hh; lia].
  apply (track_all_ok pixdist ncam ncam_ok) in Ht as (A1 & A2 & A3 & A4 & A5 & A6 & A7 & A8); auto.
  apply bind_ok in H as (cur & Hd & H). apply bind_ok in H as ([[cur' nxt'] cnt'] & Hl & H). injection H as <- <- <- <-.
  injection A7 as Y1 Y2 Y3. pose proof F1 as (FN & _). apply link_all_K in Hl as (L1 & L2).
  apply (decide_all_K psort psort_perm ncam ncam_ok (Z.of_nat (length (fr_path d2)))) in Hd; [| |lia].
  - assert (K2 : Kf d2 (set_path d2 nxt')) by (repeat (split; auto)).
    assert (K1 : Kf b1 (set_path d1 cur')).
    { repeat (split; auto). cbn [set_path fr_path]. eapply Proof_keep.F2_trans; [|eapply Proof_keep.F2_trans; [exact Hd|exact L1]].
      apply rows_K; auto. intros h p Hp. destruct (A8 h p Hp) as (q & Q1 & Q2 & _). eauto using core_K. }
    split; auto. split; [eapply Gf_trans; [exact G2|now apply Kf_Gf]|]. split; auto.
    split; [eapply Kf_ok; eauto|]. split; [eapply Kf_ok; eauto|auto].
  - intros h p Hp. assert (h < length (fr_path d1))%nat by (apply nth_error_Some; congruence).
    destruct (nth_error (fr_path b1) h) as [p0|] eqn:E0; [|apply nth_error_None in E0; lia].
    destruct (A8 h p0 E0) as (q & Q1 & Q2 & Q3). assert (q = p) as -> by congruence. apply Q3. lia.
Qed.
Lemma step_grows3 buf0 b1 b2 b3 c1 c2 c3 cnt : frame_ok b1 -> frame_ok b2 -> frame_ok b3 \/ unread b3 ->
  fstep buf0 b1 b2 b3 = Ok (c1, c2, c3, cnt) -> Kf b1 c1 /\ Gf b2 c2 /\ (frame_ok b3 -> Gf b3 c3) /\ frame_ok c1 /\ frame_ok c2.
Proof.
  intros F1 F2 [F3|U] H.
  - eapply step_grows in H as (A & B & C & D & E & _); eauto.
  - pose proof (strip_ok _ U) as F3. apply step_unread in H as (-> & H); auto. eapply step_grows in H as (A & B & C & E & F & _); eauto.
    split; auto. split; auto. split; [intros _; apply Gf_refl|auto].
Qed.

Variable D : Type.
Variable parse : bool -> D -> result frame.
Variable store : frame -> D.
Variables first last : Z.
Variables e0 e1 e2 e3 : frame.
Variable d0 : disk D.
Variable R : Z -> frame.
Theorem run_grows buf d1 nl : first < last ->
  (forall n, first <= n <= Z.max last (first + 2) -> parse false (d0 n) = Ok (R n) /\ frame_ok (R n)) ->
  (last <= first + 2 -> frame_ok e2 \/ unread e2) ->
  full_forward frame D parse store fstep first last ([e0; e1; e2; e3], d0) = Ok ((buf, d1), nl) ->
  exists W, (forall s, first <= s <= last -> d1 s = store (W s) /\ Gf (R s) (W s) /\ frame_ok (W s)).
Proof.
  intros Hl reads He H. apply forward_ok in H as (A & B & C & E & N & A0 & HH & HW & HWl & HO & _); auto.
  destruct HH as (P1 & P2 & P3 & HS).
  assert (RD : forall n f, first <= n <= Z.max last (first + 2) -> parse false (d0 n) = Ok f -> f = R n).
  { intros n f Hn Hf. destruct (reads n Hn) as (X & _). congruence. }
  assert (G : forall n s, s = first + Z.of_nat n -> s <= last ->
     Gf (R s) (B s) /\ frame_ok (B s) /\ (s < last -> Gf (R (s + 1)) (C s) /\ frame_ok (C s)) /\ (s < last -> frame_ok (E s) \/ unread (E s)) /\
     (s < last -> s + 2 <= Z.max last (first + 2) -> E s = R (s + 2)) /\ (first < s -> Gf (R (s - 1)) (A s) /\ frame_ok (A s))).
  { induction n as [|n IH]; intros s -> Hs.
    - rewrite Z.add_0_r. apply RD in P1; [|lia]. apply RD in P2; [|lia]. apply RD in P3; [|lia]. rewrite P1, P2, P3.
      split; [apply Gf_refl|]. split; [apply reads; lia|]. split; [intros _; split; [apply Gf_refl|apply reads; lia]|]. split; [|split; [auto|lia]]. intros _. left. apply reads. lia.
    - set (s := first + Z.of_nat n). replace (first + Z.of_nat (Datatypes.S n)) with (s + 1) in * by (unfold s; lia).
      assert (Hs' : first <= s < last) by (unfold s in *; lia).
      destruct (IH s eq_refl ltac:(lia)) as (I1 & J1 & I2 & I3 & I4 & I5). destruct (I2 ltac:(lia)) as (I2' & J2). specialize (I3 ltac:(lia)). specialize (I4 ltac:(lia)). clearbody s. clear IH I2.
      destruct (HS s Hs') as (S1 & S2).
      destruct (step_grows3 _ _ _ _ _ _ _ _ J1 J2 I3 S1) as (Q1 & Q2 & Q3 & Q4 & Q5).
      assert (K1 : Gf (R s) (A (s + 1))) by (eapply Gf_trans; [exact I1|now apply Kf_Gf]).
      split; [eapply Gf_trans; eauto|]. split; auto. split; [|split; [|split]].
      + intros Hn. specialize (I4 ltac:(lia)). rewrite I4 in Q3. specialize (Q3 (proj2 (reads (s + 2) ltac:(lia)))). replace (s + 1 + 1) with (s + 2) by lia. split; auto.
        rewrite I4 in S1. destruct (step_grows _ _ _ _ _ _ _ _ J1 J2 (proj2 (reads (s + 2) ltac:(lia))) S1) as (_ & _ & _ & _ & _ & X). exact X.
      + intros Hn. destruct (Z.leb_spec (s + 3) last).
        * apply RD in S2; [|lia]. rewrite S2. left. apply reads. lia.
        * rewrite S2. destruct (Z.eq_dec s first) as [->|]; [rewrite A0; apply He; lia|]. left. apply I5. lia.
      + intros Hn Hm. destruct (Z.leb_spec (s + 3) last); [|lia]. apply RD in S2; [|lia]. rewrite S2. f_equal. lia.
      + intros _. replace (s + 1 - 1) with s by lia. auto. }
  exists (fun s => if s <? last then A (s + 1) else B last). intros s Hs. destruct (Z.ltb_spec s last).
  - split; [apply HW; lia|]. destruct (G (Z.to_nat (s + 1 - first)) (s + 1) ltac:(lia) ltac:(lia)) as (_ & _ & _ & _ & _ & X). replace (s + 1 - 1) with s in X by lia. apply X. lia.
  - assert (s = last) as -> by lia. split; auto. destruct (G (Z.to_nat (last - first)) last ltac:(lia) ltac:(lia)) as (X & Y & _). auto.
Qed.
End Grow.
