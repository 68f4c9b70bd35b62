(** What whole runs leave alone when they add no particles. *)
From Coq Require Import Permutation.
From Verif Require Import Base Lib F64 Model_corr Model_cand Model_track Spec_track Spec_track2
  Proof_track_step Proof_track_back Proof_unread Proof_keep Model_fb Spec_fb Proof_fb Proof_fb_run.
Local Open Scope Z_scope.

Lemma F2_len {A B} (P : A -> B -> Prop) l m : Forall2 P l m -> length m = length l.
Proof. intros H. induction H; cbn; congruence. Qed.
Lemma Kf_len f g : Kf f g -> length (fr_path g) = length (fr_path f).
Proof. intros (_ & _ & _ & _ & H). now apply F2_len in H. Qed.
Lemma Kf_ok f g : Kf f g -> frame_ok f -> frame_ok g.
Proof. intros K (A & B). pose proof (Kf_len _ _ K) as L. destruct K as (K1 & _ & K3 & _). split; [rewrite K1, L; exact A|]. now rewrite K3. Qed.

Section Keep.
Variable psort : list (f64 * Z) -> list (f64 * Z).
Hypothesis psort_perm : forall l, Permutation l (psort l).
Variable pixdist : f64 -> f64 -> f64 -> f64 -> f64.
Variable ncam : nat.
Hypothesis ncam_ok : (1 <= ncam <= 4)%nat.
Variables imx imy : Z.
Variable ptp : Z -> vec -> f64 * f64.
Variable quader : Z -> vec -> f64 * f64 * f64 * f64.
Variable moving : vec -> vec -> vec.
Variable extrap : vec -> vec -> vec -> vec.
Variable sub : vec -> vec -> vec.
Variable norm : vec -> vec -> f64.
Variable angle : vec -> vec -> vec -> f64 * f64.
Variable flat : Z -> f64 -> f64 -> f64 * f64.
Variable point : list (f64 * f64) -> vec.
Variable tp : tpar.
Variable vl : vol.
Local Notation fstep := (trackcorr_step psort pixdist (Z.of_nat ncam) imx imy ptp quader moving extrap sub norm angle flat point tp vl).
Local Notation bstep := (trackback_step psort pixdist (Z.of_nat ncam) imx imy ptp quader moving extrap sub norm angle flat point tp vl).

Lemma step_keeps3 buf0 b1 b2 b3 c1 c2 c3 cnt : do_add tp = false -> frame_ok b1 -> frame_ok b2 -> frame_ok b3 \/ unread b3 ->
  fstep buf0 b1 b2 b3 = Ok (c1, c2, c3, cnt) -> Kf b1 c1 /\ Kf b2 c2 /\ c3 = b3.
Proof.
  intros NA F1 F2 [F3|U] H; [eapply step_keeps; eauto|].
  pose proof (strip_ok _ U) as F3. apply step_unread in H as (-> & H); auto. eapply step_keeps in H as (A & B & _); eauto.
Qed.

Variable D : Type.
Variable parse : bool -> D -> result frame.
Variable store : frame -> D.
Variables first last : Z.
Variables e0 e1 e2 e3 : frame.
Variable d0 : disk D.
Variable R : Z -> frame.

Theorem run_keeps buf d1 nl : do_add tp = false -> first < last ->
  (forall n, first <= n <= Z.max last (first + 2) -> parse false (d0 n) = Ok (R n) /\ frame_ok (R n)) ->
  (last <= first + 2 -> frame_ok e2 \/ unread e2) ->
  full_forward frame D parse store fstep first last ([e0; e1; e2; e3], d0) = Ok ((buf, d1), nl) ->
  exists W, (forall s, first <= s <= last -> d1 s = store (W s) /\ Kf (R s) (W s)).
Proof.
  intros NA Hl reads He H. apply forward_ok in H as (A & B & C & E & N & A0 & HH & HW & HWl & HO & _); auto.
  destruct HH as (P1 & P2 & P3 & HS).
  assert (RD : forall n f, first <= n <= Z.max last (first + 2) -> parse false (d0 n) = Ok f -> f = R n).
  { intros n f Hn Hf. destruct (reads n Hn) as (X & _). congruence. }
  assert (G : forall n s, s = first + Z.of_nat n -> s <= last ->
     Kf (R s) (B s) /\ (s < last -> C s = R (s + 1)) /\ (s < last -> frame_ok (E s) \/ unread (E s)) /\ (first < s -> Kf (R (s - 1)) (A s))).
  { induction n as [|n IH]; intros s -> Hs.
    - rewrite Z.add_0_r. apply RD in P1; [|lia]. apply RD in P2; [|lia]. apply RD in P3; [|lia]. rewrite P1, P2, P3.
      split; [apply Kf_refl|]. split; auto. split; [|lia]. intros _. left. apply reads. lia.
    - set (s := first + Z.of_nat n). replace (first + Z.of_nat (Datatypes.S n)) with (s + 1) in * by (unfold s; lia).
      assert (Hs' : first <= s < last) by (unfold s in *; lia).
      destruct (IH s eq_refl ltac:(lia)) as (I1 & I2 & I3 & I5). specialize (I2 ltac:(lia)). specialize (I3 ltac:(lia)). clearbody s. clear IH.
      destruct (HS s Hs') as (S1 & S2).
      destruct (reads s ltac:(lia)) as (_ & RO). destruct (reads (s + 1) ltac:(lia)) as (_ & RO1).
      pose proof (Kf_ok _ _ I1 RO) as FB. rewrite I2 in S1.
      destruct (step_keeps3 _ _ _ _ _ _ _ _ NA FB RO1 I3 S1) as (Q1 & Q2 & Q3).
      split; auto. split; [|split].
      + intros Hn. rewrite Q3. destruct (Z.eqb_spec s first) as [->|Ns].
        * apply RD in P3; [|lia]. rewrite P3. now rewrite <- Z.add_assoc.
        * destruct (HS (s - 1) ltac:(lia)) as (_ & S2'). replace (s - 1 + 1) with s in S2' by lia. replace (s - 1 + 3) with (s + 2) in S2' by lia.
          destruct (Z.leb_spec (s + 2) last); [|lia]. apply RD in S2'; [|lia]. rewrite S2'. now rewrite <- Z.add_assoc.
      + intros Hn. destruct (Z.leb_spec (s + 3) last).
        * apply RD in S2; [|lia]. rewrite S2. left. apply reads. lia.
        * rewrite S2. destruct (Z.eq_dec s first) as [->|]; [rewrite A0; apply He; lia|]. left. eapply Kf_ok; [apply I5; lia|apply reads; lia].
      + intros _. replace (s + 1 - 1) with s by lia. eapply Kf_trans; eauto. }
  exists (fun s => if s <? last then A (s + 1) else B last). intros s Hs. destruct (Z.ltb_spec s last).
  - split; [apply HW; lia|]. destruct (G (Z.to_nat (s + 1 - first)) (s + 1) ltac:(lia) ltac:(lia)) as (_ & _ & _ & X). replace (s + 1 - 1) with s in X by lia. apply X. lia.
  - assert (s = last) as -> by lia. split; auto. apply (G (Z.to_nat (last - first)) last ltac:(lia) ltac:(lia)).
Qed.

Lemma KL_zero l m : Forall2 KL l m -> (forall p, In p l -> p_inlist p = 0) -> forall p, In p m -> p_inlist p = 0.
Proof.
  intros H. induction H as [|x y l m (_ & HK) H IH]; intros Z p Hp; [destruct Hp|]. destruct Hp as [<-|Hp]; [rewrite HK; apply Z; now left|].
  apply IH; auto. intros q Hq. apply Z. now right.
Qed.
Theorem back_run_keeps buf d1 nl : first + 2 <= last ->
  (forall n, Z.min first (last - 3) <= n <= last -> parse true (d0 n) = Ok (R n) /\ frame_ok (R n) /\ forall p, In p (fr_path (R n)) -> p_inlist p = 0) ->
  trackback_c frame D parse store bstep first last ([e0; e1; e2; e3], d0) = Ok ((buf, d1), nl) ->
  exists W, (forall s, first + 1 < s < last -> d1 s = store (W s)) /\ d1 (first + 1) = store (W first) /\
    forall s, first <= s < last -> Kf (R s) (W s).
Proof.
  intros Hl HR H. apply backward_ok in H as (A & B & C & E & N & HH & W1 & W2 & W3 & W4); auto.
  destruct HH as (P1 & P2 & P3 & P4 & HS).
  assert (R1 : forall n f, Z.min first (last - 3) <= n <= last -> parse true (d0 n) = Ok f -> f = R n).
  { intros n f Hn Hf. destruct (HR n Hn) as (Hx & _). congruence. }
  apply R1 in P1, P2, P3, P4; try lia.
  assert (G : forall n s, s = last - 1 - Z.of_nat n -> first <= s ->
     (first < s -> C s = R (s - 1)) /\ (first < s -> first <= s - 2 \/ s = last - 1 -> E s = R (s - 2)) /\ Kf (R s) (B s) /\ Forall2 KL (fr_path (R s)) (fr_path (B s)) /\
     (s < last - 1 -> Kf (R (s + 1)) (A s))).
  { induction n as [|n IH]; intros s -> Hs.
    - rewrite Z.sub_0_r. replace (last - 1 - 1) with (last - 2) by lia. replace (last - 1 - 2) with (last - 3) by lia.
      rewrite P2. split; auto. split; auto. split; [apply Kf_refl|]. split; [apply KL_refl|lia].
    - set (k := last - 1 - Z.of_nat n). replace (last - 1 - Z.of_nat (S n)) with (k - 1) in * by (unfold k; lia).
      destruct (IH k eq_refl ltac:(lia)) as (I1 & I2 & I3 & I4 & I5). specialize (I1 ltac:(lia)). specialize (I2 ltac:(lia)).
      assert (Hk : first < k <= last - 1) by (unfold k in *; lia).
      destruct (HS k Hk) as (S1 & S2 & S3).
      assert (FB : frame_ok (B k)) by (eapply Kf_ok; [exact I3|apply HR; lia]).
      assert (FC : frame_ok (C k)) by (rewrite I1; apply HR; lia).
      assert (IL : forall p, In p (fr_path (B k)) -> p_inlist p = 0) by (eapply KL_zero; [exact I4|apply HR; lia]).
      pose proof S1 as Q. apply (back_keeps psort psort_perm pixdist ncam ncam_ok) in Q as (Q1 & Q2 & Q3); auto.
      rewrite I1 in Q2, Q3. split; [|split; [|split; [|split]]]; auto.
      + intros Hx. rewrite S2, I2 by (unfold k in *; lia). f_equal. lia.
      + intros Hx [Hy|Hy]; [|unfold k in *; lia]. destruct (Z.leb_spec first (k - 3)); [|lia]. replace (k - 1 - 2) with (k - 3) by lia. apply R1; auto. lia.
      + intros _. replace (k - 1 + 1) with k by lia. eapply Kf_trans; eauto. }
  exists (fun s => if s =? first then B first else A (s - 1)). split; [|split].
  - intros s Hs. destruct (Z.eqb_spec s first); [lia|]. now apply W1.
  - now rewrite Z.eqb_refl.
  - intros s Hs. destruct (Z.eqb_spec s first) as [->|].
    + apply (G (Z.to_nat (last - 1 - first)) first ltac:(lia) ltac:(lia)).
    + destruct (G (Z.to_nat (last - 1 - (s - 1))) (s - 1) ltac:(lia) ltac:(lia)) as (_ & _ & _ & _ & X). replace (s - 1 + 1) with s in X by lia. apply X. lia.
Qed.
End Keep.
