(** Repeated forward runs over files that add particles come to an end. *)
From Coq Require Import Permutation.
From Verif Require Import F64 Model_text Proof_text Model_corr Model_track Spec_track Spec_track2 Proof_track_ex Proof_unread Proof_keep Proof_grow Model_fb Spec_fb Proof_fb Proof_keep2 Prop_fb Proof_rerun Prop_rerun
  Model_io Spec_io Proof_io Proof_io2 Proof_io3 Proof_io4 Model_files Spec_files Proof_files Proof_files2 Proof_files3 Proof_files4 Proof_files5 Proof_files6 Proof_grow2 Lib Base.
Local Open Scope Z_scope.

Lemma good_fits f : good f -> Z.of_nat (length (fr_path f)) <= 2 ^ 53 -> fits f.
Proof.
  intros (G1 & G2 & G3 & G4 & G5 & G6) H. split; auto. split; auto. split; auto. intros p Hp. rewrite Forall_forall in G4.
  specialize (G4 (of_pinfo p) (in_map _ _ _ Hp)). unfold path_ok, of_pinfo in G4. destruct (p_x p) as [[x y] z]. cbn [pr_x pr_prev pr_next pr_prio] in G4.
  destruct G4 as (_ & F & _ & _ & P). split; auto. inversion F as [|? ? F1 F']; inversion F' as [|? ? F2 F'']; inversion F'' as [|? ? F3 _]; subst. split; auto.
Qed.
Lemma unused_same a b : Forall2 (Forall2 (same_target 4)) (fr_targ a) (fr_targ b) -> unused_targets b = unused_targets a.
Proof.
  unfold unused_targets. intros H. f_equal. induction H as [|x y l m F H IH]; cbn [map]; [reflexivity|]. f_equal; auto. clear - F.
  induction F as [|t u l m (_ & _ & _ & _ & _ & T & _) F IH]; [reflexivity|]. cbn [filter]. rewrite T. destruct (t_tnr t =? -1); cbn [length]; auto.
Qed.

Section G3.
Variable can_write : text -> bool.
Variables cb lb pb : text.
Variable bases : list text.
Variable psort : list (f64 * Z) -> list (f64 * Z).
Hypothesis psort_perm : forall l, Permutation l (psort l).
Variable pixdist : f64 -> f64 -> f64 -> f64 -> f64.
Hypothesis ncam_ok : (1 <= length bases <= 4)%nat.
Variables imx imy : Z.
Variable ptp : Z -> vec -> f64 * f64.
Variable quader : Z -> vec -> f64 * f64 * f64 * f64.
Variable moving : vec -> vec -> vec.
Variable extrap : vec -> vec -> vec -> vec.
Variable sub : vec -> vec -> vec.
Variable norm : vec -> vec -> f64.
Variable angle : vec -> vec -> vec -> f64 * f64.
Variable flat : Z -> f64 -> f64 -> f64 * f64.
Variable point : list (f64 * f64) -> vec.
Hypothesis PT : forall v, vec_floats (point v).
Variable tp : tpar.
Variable vl : vol.
Local Notation fstep := (trackcorr_step psort pixdist (Z.of_nat (length bases)) imx imy ptp quader moving extrap sub norm angle flat point tp vl).
Variables first last : Z.
Variables e0 e1 e2 e3 : frame.
Hypothesis Hl : first < last.
Local Notation hi := (Z.max last (first + 2)).
Hypothesis L : layout can_write cb lb pb bases first hi.
Hypothesis He : last <= first + 2 -> frame_ok e2 \/ unread e2.
Local Notation run fs := (forward_run can_write cb lb pb bases fstep first last ([e0; e1; e2; e3], fs)).
Local Notation reads fs n l := (file_read cb lb pb bases fs n l).

Definition ready (fs : files) (R : Z -> frame) : Prop := forall n, first <= n <= hi -> reads fs n false = Ok (R n) /\ frame_ok (R n) /\ fits (R n) /\ roomy (R n).
Definition own (fs : files) (R : Z -> frame) : Prop := forall n, first <= n <= last -> exists g, file_write can_write cb lb pb bases fs (R n) n = Ok g /\
  forall t, t <> frame_name lb n -> t <> frame_name pb n -> g t = fs t.

Lemma run_frames fs R buf fs' nl : ready fs R -> run fs = Ok ((buf, fs'), nl) ->
  (exists W, (forall n, first <= n <= last -> writable bases (W n) /\ Gf point (R n) (W n) /\ frame_ok (W n) /\ contents cb lb pb bases fs' n = want (W n) /\ good (W n)) /\
    (forall n, first <= n < last -> mutual (fr_path (W n)) (fr_path (W (n + 1)))) /\
    (forall p, In p (fr_path (W first)) -> p_prev p = PREV_NONE) /\ (forall p, In p (fr_path (W last)) -> p_next p = NEXT_NONE)) /\
  (forall t, ~ file_in cb lb pb bases first last t -> fs' t = fs t).
Proof.
  intros HR H.
  apply (run_facts_add _ _ _ _ _ psort psort_perm pixdist ncam_ok imx imy ptp quader moving extrap sub norm angle flat point tp vl first last e0 e1 e2 e3 R Hl L He) in H as ((W & W1 & MU & M4 & M5) & O).
  2:{ intros n Hn. destruct (HR n Hn) as (A & B & _). auto. }
  assert (LEN : forall n, first <= n <= last -> Z.of_nat (length (fr_path (W n))) <= 2 ^ 53).
  { intros n Hn. destruct (HR n ltac:(lia)) as (E & _ & _ & R1 & R2). apply read_shape in E as (_ & _ & _ & A4 & _). destruct (W1 n Hn) as (_ & (_ & _ & _ & _ & _ & U & _) & _).
    change (unused_targets (R n)) with (usum (fr_targ (R n))) in R1. lia. }
  assert (TA : forall n q, first <= n <= last -> In q (fr_path (W n)) -> tame q).
  { intros n q Hn. destruct (HR n ltac:(lia)) as (E & _). apply read_shape in E as (_ & _ & _ & _ & _ & E). destruct (W1 n Hn) as (_ & ((l1 & l2 & A1 & A2 & A3) & _) & _).
    rewrite A1. apply (tame_new _ _ _ _ A2 A3). now apply E. }
  split; [|exact O]. exists W. split; [|auto]. intros n Hn. destruct (W1 n Hn) as (NN & KG & FO & X). split; auto. split; auto. split; auto. split; auto.
  destruct (HR n ltac:(lia)) as (E & _ & F & RM). apply read_shape in E as (A1 & A2 & A3 & A4 & _ & A5).
  apply (good_grown bases point (R n)); auto; [unfold shape; auto|]. intros q Hq. exact (links_exact first last W LEN TA MU M4 M5 n q Hn Hq).
Qed.

(** what a run leaves can be read again, and is in the program's own form *)
Lemma run_next fs R buf fs' nl : ready fs R -> run fs = Ok ((buf, fs'), nl) ->
  exists R', ready fs' R' /\ own fs' R' /\
    forall n, first <= n <= last -> (length (fr_path (R n)) <= length (fr_path (R' n)))%nat /\
      (length (fr_path (R' n)) + unused_targets (R' n) <= length (fr_path (R n)) + unused_targets (R n))%nat.
Proof.
  intros HR H. apply (run_frames _ _ _ _ _ HR) in H as ((W & W1 & _) & O).
  assert (BK : forall n, first <= n <= last -> exists g, reads fs' n false = Ok g /\ frame_ok g /\ fits g /\ roomy g /\
    (exists k, file_write can_write cb lb pb bases fs' g n = Ok k /\ forall t, t <> frame_name lb n -> t <> frame_name pb n -> k t = fs' t) /\
    (length (fr_path (R n)) <= length (fr_path g))%nat /\ (length (fr_path g) + unused_targets g <= length (fr_path (R n)) + unused_targets (R n))%nat).
  { intros n Hn. assert (Hn' : first <= n <= hi) by lia. destruct (W1 n Hn) as (NN & KG & FO & X & GW).
    destruct (back_fresh _ _ _ _ _ _ _ L (W n) ltac:(lia) NN GW) as (g & E1 & E2 & E3 & E4 & E5 & E6 & E7 & E8).
    assert (LG : length (fr_path g) = length (fr_path (W n))) by (eapply F2_len; eauto). pose proof (unused_same _ _ E8) as UG.
    assert (GL : (length (fr_path (R n)) <= length (fr_path (W n)))%nat) by (eapply Gf_long; [exact ncam_ok|exact KG]). destruct (HR n Hn') as (_ & _ & _ & R1 & R2). pose proof KG as (_ & _ & _ & _ & KT & KU & _).
    change (usum (fr_targ (W n))) with (unused_targets (W n)) in KU. change (usum (fr_targ (R n))) with (unused_targets (R n)) in KU.
    exists g. split; [rewrite (cparse_ok _ _ _ _ _ _ _ L) by lia; now rewrite X|]. split; [|split; [|split; [|split; [|split]]]].
    - pose proof E3 as (E3' & _). split; [exact E3'|]. destruct FO as (_ & F). intros tl t Htl Ht.
      assert (I : In (t_tnr t) (map t_tnr (concat (fr_targ g)))) by (apply in_map, in_concat; eauto). rewrite E6 in I. apply in_map_iff in I as (t' & Et & I). apply in_concat in I as (tl' & I1 & I2). rewrite <- Et. eapply F; eauto.
    - apply good_fits; auto. lia.
    - split; [lia|]. intros tl Htl. apply (small_len (fr_targ (R n)) (fr_targ g)); auto. rewrite (FF_len _ _ _ E8). eapply FF_len; eauto.
    - destruct (write_ok _ _ _ _ _ _ _ L fs' g n Hn' E2) as (k & K1 & K2 & K3). exists k. split; auto. intros t T1 T2.
      destruct (in_dec (list_eq_dec ascii_dec) t (files_of cb lb pb bases n)) as [I|I]; [|now apply K3].
      destruct I as [<-|[<-|[<-|I]]]; [|contradiction|contradiction|].
      + assert (Q : nth_error (contents cb lb pb bases k n) 0 = nth_error (contents cb lb pb bases fs' n) 0) by (rewrite K2, X; exact E4). rewrite !head_corr in Q. congruence.
      + assert (Q : skipn 3 (contents cb lb pb bases k n) = skipn 3 (contents cb lb pb bases fs' n)) by (rewrite K2, X; exact E5). rewrite !skip_targets in Q. apply (ext_in_map Q t I).
    - lia.
    - lia. }
  set (R' := fun n => if n <=? last then match reads fs' n false with Ok g => g | Exn _ => R n end else R n).
  assert (B : forall n, first <= n <= last -> reads fs' n false = Ok (R' n) /\ frame_ok (R' n) /\ fits (R' n) /\ roomy (R' n) /\
    (exists k, file_write can_write cb lb pb bases fs' (R' n) n = Ok k /\ forall t, t <> frame_name lb n -> t <> frame_name pb n -> k t = fs' t) /\
    (length (fr_path (R n)) <= length (fr_path (R' n)))%nat /\ (length (fr_path (R' n)) + unused_targets (R' n) <= length (fr_path (R n)) + unused_targets (R n))%nat).
  { intros n Hn. destruct (BK n Hn) as (g & E & Y). unfold R'. destruct (Z.leb_spec n last) as [Q|Q]; [|lia]. rewrite E. auto. }
  exists R'. split; [|split].
  - intros n Hn. destruct (Z_le_gt_dec n last) as [Q|Q]; [destruct (B n ltac:(lia)) as (B1 & B2 & B3 & B4 & _); auto|].
    assert (ER : R' n = R n) by (unfold R'; destruct (Z.leb_spec n last); [lia|reflexivity]). rewrite ER. destruct (HR n Hn) as (A & A'). split; auto.
    rewrite <- A. apply (read_eq _ _ _ _ _ _ _ L); auto. apply same_files. intros t Ht. apply O. intros (m & Hm & I). apply (files_apart _ _ _ _ _ _ _ L n m t); auto; lia.
  - intros n Hn. apply B. exact Hn.
  - intros n Hn. apply B. exact Hn.
Qed.

(** a run over files in that form that adds nothing repeats *)
Lemma run_stable fs R buf fs' nl R' : ready fs R -> own fs R -> run fs = Ok ((buf, fs'), nl) -> ready fs' R' ->
  (forall n, first <= n <= last -> length (fr_path (R' n)) = length (fr_path (R n))) ->
  exists fs'', run fs' = Ok ((buf, fs''), nl) /\ forall t, fs'' t = fs' t.
Proof.
  intros HR HO H HR' HL. pose proof H as H0. apply (run_frames _ _ _ _ _ HR) in H as ((W & W1 & _) & O).
  assert (W2 : forall n, first <= n <= last -> writable bases (W n) /\ Kf (R n) (W n) /\ contents cb lb pb bases fs' n = want (W n)).
  { intros n Hn. destruct (W1 n Hn) as (NN & KG & FO & X & GW). split; auto. split; auto. destruct KG as (_ & _ & _ & _ & _ & _ & K). apply K.
    destruct (back_fresh _ _ _ _ _ _ _ L (W n) ltac:(lia) NN GW) as (g & E1 & _ & _ & _ & _ & _ & E7 & _).
    destruct (HR' n ltac:(lia)) as (E & _). rewrite (cparse_ok _ _ _ _ _ _ _ L) in E by lia. rewrite X, E1 in E. injection E as E. rewrite <- (HL n Hn), <- E. symmetry. eapply F2_len; eauto. }
  apply (run_again _ _ _ _ _ psort pixdist ncam_ok imx imy ptp quader moving extrap sub norm angle flat point tp vl first last e0 e1 e2 e3 R Hl L fs buf fs' nl); auto.
  - intros n Hn. destruct (HR n Hn) as (A & B & _). auto.
  - eauto.
Qed.

Definition canon (fs : files) (n : Z) : frame := match reads fs n false with Ok g => g | Exn _ => e0 end.
Lemma canon_eq fs R n : ready fs R -> first <= n <= hi -> canon fs n = R n.
Proof. intros H Hn. unfold canon. destruct (H n Hn) as (-> & _). reflexivity. Qed.
Lemma ready_canon fs R : ready fs R -> ready fs (canon fs).
Proof. intros H n Hn. rewrite (canon_eq fs R n H Hn). now apply H. Qed.
Definition grown (f g : files) : Prop := forall n, first <= n <= last -> (length (fr_path (canon f n)) <= length (fr_path (canon g n)))%nat /\
   (length (fr_path (canon g n)) + unused_targets (canon g n) <= length (fr_path (canon f n)) + unused_targets (canon f n))%nat.
Lemma canon_next fs buf fs' nl : ready fs (canon fs) -> run fs = Ok ((buf, fs'), nl) -> ready fs' (canon fs') /\ own fs' (canon fs') /\ grown fs fs'.
Proof.
  intros HR H. apply (run_next _ _ _ _ _ HR) in H as (R' & A & B & C). split; [eapply ready_canon; eauto|]. split.
  - intros n Hn. rewrite (canon_eq _ _ n A) by lia. now apply B.
  - intros n Hn. rewrite (canon_eq fs' R' n A) by lia. now apply C.
Qed.
(** unused targets of the frames of the run *)
Definition total (f : files) : nat := list_sum (map (fun n => unused_targets (canon f n)) (zrange first (last + 1))).
Definition still (f g : files) : Prop := forall n, first <= n <= last -> length (fr_path (canon g n)) = length (fr_path (canon f n)).
Lemma sum_less {A} (f g : A -> nat) l : (forall x, In x l -> (f x <= g x)%nat) -> (list_sum (map f l) <= list_sum (map g l))%nat /\
  ((exists x, In x l /\ (f x < g x)%nat) -> (list_sum (map f l) < list_sum (map g l))%nat).
Proof.
  unfold list_sum. induction l as [|a l IH]; intros H; cbn [map fold_right]; [split; [lia|intros (x & [] & _)]|].
  destruct (IH (fun x Hx => H x (or_intror Hx))) as (I1 & I2). pose proof (H a (or_introl eq_refl)). split; [lia|].
  intros (x & [<-|Hx] & E); [lia|]. specialize (I2 (ex_intro _ x (conj Hx E))). lia.
Qed.
Lemma grown_total f g : grown f g -> (total g <= total f)%nat /\ (still f g \/ (total g < total f)%nat).
Proof.
  intros H. unfold total. destruct (sum_less (fun n => unused_targets (canon g n)) (fun n => unused_targets (canon f n)) (zrange first (last + 1))) as (A & B).
  { intros n Hn. apply In_zrange in Hn. specialize (H n ltac:(lia)). lia. }
  split; auto. destruct (existsb (fun n => negb (Nat.eqb (length (fr_path (canon g n))) (length (fr_path (canon f n))))) (zrange first (last + 1))) eqn:E.
  - right. apply B. apply existsb_exists in E as (n & Hn & E). exists n. split; auto. apply negb_true_iff, Nat.eqb_neq in E. apply In_zrange in Hn. specialize (H n ltac:(lia)). lia.
  - left. intros n Hn. destruct (Nat.eqb_spec (length (fr_path (canon g n))) (length (fr_path (canon f n)))) as [|D]; auto. exfalso.
    assert (X : existsb (fun n => negb (Nat.eqb (length (fr_path (canon g n))) (length (fr_path (canon f n))))) (zrange first (last + 1)) = true); [|congruence].
    apply existsb_exists. exists n. split; [apply In_zrange; lia|]. apply negb_true_iff, Nat.eqb_neq. exact D.
Qed.

Section Runs.
Variable fs : nat -> files.
Variable nl : nat -> Z.
Variable m : nat.
Hypothesis RUNS : forall i, (i < m)%nat -> exists buf, run (fs i) = Ok ((buf, fs (S i)), nl i).
Hypothesis R0 : ready (fs O) (canon (fs O)).
Lemma all_ready i : (i <= m)%nat -> ready (fs i) (canon (fs i)) /\ ((1 <= i)%nat -> own (fs i) (canon (fs i))).
Proof.
  induction i as [|i IH]; intros Hi; [split; [exact R0|lia]|]. destruct (IH ltac:(lia)) as (A & _). destruct (RUNS i ltac:(lia)) as (buf & H).
  destruct (canon_next _ _ _ _ A H) as (B & C & _). auto.
Qed.
Lemma all_grown i : (i < m)%nat -> grown (fs i) (fs (S i)).
Proof. intros Hi. destruct (all_ready i ltac:(lia)) as (A & _). destruct (RUNS i Hi) as (buf & H). eapply canon_next; eauto. Qed.
Lemma still_same i : (1 <= i)%nat -> (S i < m)%nat -> still (fs i) (fs (S i)) -> (forall t, fs (S (S i)) t = fs (S i) t) /\ nl (S i) = nl i.
Proof.
  intros H1 Hi HS. destruct (all_ready i ltac:(lia)) as (A & B). destruct (all_ready (S i) ltac:(lia)) as (A' & _). destruct (RUNS i ltac:(lia)) as (buf & H).
  destruct (run_stable _ _ _ _ _ _ A (B H1) H A' HS) as (g & G & E). destruct (RUNS (S i) Hi) as (buf' & G'). rewrite G in G'. injection G' as E1 E2 E3. split; [|auto].
  intros t. rewrite <- E2. apply E.
Qed.
Lemma still_on i : (forall t, fs (S (S i)) t = fs (S i) t) -> still (fs (S i)) (fs (S (S i))).
Proof.
  intros H n Hn. unfold canon. rewrite (read_eq _ _ _ _ _ _ _ L (fs (S (S i))) (fs (S i)) n n) by (try lia; apply same_files; auto). reflexivity.
Qed.
Lemma still_forever i j : (1 <= i)%nat -> still (fs i) (fs (S i)) -> (i < j)%nat -> (j < m)%nat -> (forall t, fs (S j) t = fs j t) /\ nl j = nl (pred j).
Proof.
  intros H1 HS Hj Hm. assert (X : forall k, (i + k < m)%nat -> still (fs (i + k)%nat) (fs (S (i + k)))).
  { induction k as [|k IH]; intros Hk; [now rewrite Nat.add_0_r|]. replace (i + S k)%nat with (S (i + k)) in * by lia. apply still_on.
    apply (still_same (i + k)); auto; try lia. apply IH. lia. }
  destruct j as [|j]; [lia|]. cbn [pred]. apply still_same; auto; try lia. replace j with (i + (j - i))%nat by lia. apply X. lia.
Qed.
Lemma adding_ends k : (k <= m)%nat -> (exists i, (1 <= i < k)%nat /\ still (fs i) (fs (S i))) \/ (total (fs k) + (k - 1) <= total (fs O))%nat.
Proof.
  induction k as [|k IH]; intros Hk; [right; lia|]. destruct (IH ltac:(lia)) as [(i & Hi & S1)|X]; [left; exists i; split; auto; lia|].
  destruct (grown_total _ _ (all_grown k ltac:(lia))) as (G1 & G2). destruct k as [|k]; [right; lia|]. destruct G2 as [G2|G2]; [left; exists (S k); split; auto; lia|right; lia].
Qed.
Theorem settles j : (total (fs O) + 2 <= j)%nat -> (j < m)%nat -> (forall t, fs (S j) t = fs j t) /\ nl j = nl (pred j).
Proof.
  intros H1 H2. destruct (adding_ends (total (fs O) + 2) ltac:(lia)) as [(i & Hi & S1)|X]; [|lia]. apply (still_forever i); auto; lia.
Qed.
End Runs.
End G3.
