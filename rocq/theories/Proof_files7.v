(** What a backward run leaves in the files. *)
From Coq Require Import Permutation.
From Verif Require Import F64 Model_text Proof_text Model_corr Model_track Spec_track Proof_unread Proof_keep Model_fb Spec_fb Proof_fb Proof_keep2 Prop_fb
  Model_io Spec_io Proof_io Proof_io2 Proof_io3 Proof_io4 Model_files Spec_files Proof_files Proof_files2 Proof_files3 Proof_files4 Proof_files5 Proof_files6 Lib Base.
Local Open Scope Z_scope.

(** a frame without links *)
Definition nolinks (f : frame) : frame := set_path f (map (fun p => set_prev (set_next p NEXT_NONE) PREV_NONE) (fr_path f)).
Lemma nolinks_Kf f : Kf f (nolinks f).
Proof.
  unfold nolinks, set_path. do 4 (split; [reflexivity|]). cbn [fr_path]. induction (fr_path f) as [|p l IH]; cbn [map]; constructor; auto.
  split; [reflexivity|]. split; [reflexivity|]. intros _. split; left; reflexivity.
Qed.
Section F7.
Variable can_write : text -> bool.
Variables cb lb pb : text.
Variable bases : list text.
Variables lo hi : Z.
Hypothesis L : layout can_write cb lb pb bases lo hi.
Lemma fresh_of (f g : frame) fs n : lo <= n <= hi -> fits f -> shape bases f -> Kf f g -> writable bases g -> contents cb lb pb bases fs n = want g ->
  exists k, file_read cb lb pb bases fs n false = Ok k /\ Forall2 same_position (fr_path f) (fr_path k) /\ Forall2 (Forall2 (same_target 4)) (fr_targ f) (fr_targ k).
Proof.
  intros Hn F S K WG E.
  assert (K' : Kf f (nolinks g)) by (eapply Kf_trans; [exact K|apply nolinks_Kf]).
  assert (G : good (nolinks g)).
  { apply (good_kept bases f); auto. intros q Hq. unfold nolinks, set_path in Hq. cbn [fr_path] in Hq. apply in_map_iff in Hq as (p & <- & _). cbn. unfold exact_int, PREV_NONE, NEXT_NONE. lia. }
  assert (WN : writable bases (nolinks g)).
  { destruct WG as (A & B & _ & C). split; [exact A|]. split; [exact B|]. split; [apply want_texts; exact G|exact C]. }
  destruct (back_fresh _ _ _ _ _ _ _ L (nolinks g) ltac:(lia) WN G) as (k & E1 & _ & _ & _ & _ & _ & E2 & E3).
  destruct (write_ok _ _ _ _ _ _ _ L (fun _ => None) (nolinks g) n Hn WN) as (fs2 & _ & C2 & _).
  destruct (want_corr bases _ _ (nolinks_Kf g) WG WN) as (X1 & X2). rewrite <- E, <- C2 in X1, X2. rewrite !head_corr in X1. rewrite !skip_targets in X2.
  exists k. split; [|split].
  - rewrite (read_eq_fresh _ _ _ _ _ _ _ L fs fs2 n n Hn Hn); [|congruence|intros b Hb; rewrite !map_map in X2; exact (ext_in_map X2 b Hb)].
    rewrite (cparse_ok _ _ _ _ _ _ _ L) by exact Hn. rewrite C2. exact E1.
  - clear - E2 K'. destruct K' as (_ & _ & _ & _ & K5). revert K5. generalize (fr_path f). induction E2 as [|p q l m Hpq P2 IH]; intros r K5; inversion K5 as [|p' ? r' ? HK K5']; subst; constructor; auto.
    destruct HK as (K1 & _). unfold same_position in *. rewrite <- K1. exact Hpq.
  - destruct K' as (_ & _ & K3 & _). rewrite <- K3. exact E3.
Qed.

Variable psort : list (f64 * Z) -> list (f64 * Z).
Hypothesis psort_perm : forall l, Permutation l (psort l).
Variable pixdist : f64 -> f64 -> f64 -> f64 -> f64.
Hypothesis ncam_ok : (1 <= length bases <= 4)%nat.
Variables imx imy : Z.
Variable ptp : Z -> vec -> f64 * f64.
Variable quader : Z -> vec -> f64 * f64 * f64 * f64.
Variable moving : vec -> vec -> vec.
Variable extrap : vec -> vec -> vec -> vec.
Variable sub : vec -> vec -> vec.
Variable norm : vec -> vec -> f64.
Variable angle : vec -> vec -> vec -> f64 * f64.
Variable flat : Z -> f64 -> f64 -> f64 * f64.
Variable point : list (f64 * f64) -> vec.
Variable tp : tpar.
Variable vl : vol.
Local Notation bstep := (trackback_step psort pixdist (Z.of_nat (length bases)) imx imy ptp quader moving extrap sub norm angle flat point tp vl).
Variables first last : Z.
Variables e0 e1 e2 e3 : frame.
Variable R : Z -> frame.
Hypothesis Hl : first + 2 <= last.
Hypothesis Hlo : lo = Z.min first (last - 3).
Hypothesis Hhi : hi = last.
Theorem back_facts fs buf fs' nl :
  (forall n, lo <= n <= last -> file_read cb lb pb bases fs n true = Ok (R n) /\ frame_ok (R n)) ->
  (forall n, lo <= n < last -> mutual (fr_path (R n)) (fr_path (R (n + 1)))) ->
  backward_run can_write cb lb pb bases bstep first last ([e0; e1; e2; e3], fs) = Ok ((buf, fs'), nl) ->
  (exists W, (forall n, first + 1 < n < last -> contents cb lb pb bases fs' n = want (W n)) /\ contents cb lb pb bases fs' (first + 1) = want (W first) /\
    (forall n, n = first \/ first + 1 < n < last -> writable bases (W n) /\ Kf (R n) (W n)) /\
    (forall n, first <= n < last -> mutual (fr_path (W n)) (fr_path (W (n + 1)))) /\
    (forall s, first <= s <= last -> length (fr_path (W s)) = length (fr_path (R s)) /\
      forall h p, nth_error (fr_path (R s)) h = Some p -> exists q, nth_error (fr_path (W s)) h = Some q /\ p_x q = p_x p /\
        (p_next p <> NEXT_NONE -> p_next q = p_next p) /\ (p_prev p <> PREV_NONE -> p_prev q = p_prev p))) /\
  (forall t, ~ file_in cb lb pb bases (first + 1) (last - 1) t -> fs' t = fs t).
Proof.
  intros HR HM H. subst hi.
  apply (backward_sim frame files cell (file_read cb lb pb bases) (file_write can_write cb lb pb bases) (kparse cb lb pb bases lo) kstore bstep
    (ksim cb lb pb bases lo last fs) (fun n => lo <= n <= last)) with (b := ([e0; e1; e2; e3], kstart cb lb pb bases lo last fs)) in H as ([b' d'] & H & E & S1 & S2); auto.
  2:{ intros w d n l. eapply ksim_read; eauto. }
  2:{ intros w d f n w'. eapply ksim_write; eauto. }
  2:{ intros n. now rewrite <- Hlo. }
  2:{ split; [reflexivity|]. apply kstart_sim. }
  cbn [fst snd] in *. subst b'.
  assert (RD : forall n, lo <= n <= last -> kparse cb lb pb bases lo true (kstart cb lb pb bases lo last fs n) = Ok (R n)).
  { intros n Hn. rewrite kstart_in by auto. cbn [kparse]. rewrite <- (cparse_ok _ _ _ _ _ _ _ L) by auto. apply HR; auto. }
  assert (RZ : forall n, Z.min first (last - 3) <= n <= last -> kparse cb lb pb bases lo true (kstart cb lb pb bases lo last fs n) = Ok (R n) /\ frame_ok (R n) /\ forall p, In p (fr_path (R n)) -> p_inlist p = 0).
  { intros n Hn. rewrite <- Hlo in Hn. split; auto. destruct (HR n Hn) as (E & F). split; auto. apply read_shape in E as (_ & _ & _ & _ & E & _); auto. }
  pose proof H as H0. pose proof H as H1.
  apply backward_ok in H1 as (_ & _ & _ & _ & _ & _ & _ & _ & W3 & _); auto.
  assert (HM' : forall n, Z.min first (last - 3) <= n < last -> mutual (fr_path (R n)) (fr_path (R (n + 1)))) by (rewrite <- Hlo; exact HM).
  apply (back_run_keeps psort psort_perm pixdist (length bases) ncam_ok imx imy ptp quader moving extrap sub norm angle flat point tp vl cell _ _ first last e0 e1 e2 e3 _ R) in H0 as (W & K1 & K2 & K3); auto.
  apply (C13_backward_run) with (R := R) in H as (W' & M1 & M2 & M3 & M4); auto.
  assert (EW : forall n, n = first \/ first + 1 < n < last -> W n = W' n).
  { intros n [->|Hn]; [rewrite M3 in K2; injection K2; auto|]. specialize (K1 n Hn). rewrite (M2 n Hn) in K1. injection K1; auto. }
  assert (CT : forall n m, lo <= n <= last -> d' n = kstore (W' m) -> contents cb lb pb bases fs' n = want (W' m) /\ writable bases (W' m)).
  { intros n m Hn X. destruct (S1 n Hn) as (o & Y & Z). rewrite X in Y. unfold kstore in Y. split; [congruence|]. apply Z. congruence. }
  split.
  - exists W'. split; [|split; [|split; [|split]]]; auto.
    + intros n Hn. apply CT; auto. lia.
    + apply CT; auto. lia.
    + intros n Hn. split; [|rewrite <- EW by exact Hn; apply K3; lia]. destruct Hn as [->|Hn]; [apply (CT (first + 1) first); auto; lia|apply (CT n n); auto; lia].
  - intros t Ht. destruct (file_in_dec cb lb pb bases lo last t) as [(n & Hn & I)|N]; [|now apply S2].
    destruct (S1 n ltac:(lia)) as (o & X & _). rewrite (W3 n) in X by (intros Q; apply Ht; exists n; split; auto; lia). rewrite kstart_in in X by lia.
    assert (X1 : contents cb lb pb bases fs n = contents cb lb pb bases fs' n) by congruence.
    symmetry. revert I. apply (proj1 (same_files cb lb pb bases fs fs' n)). exact X1.
Qed.
End F7.
