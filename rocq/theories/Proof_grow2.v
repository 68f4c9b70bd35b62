(** Forward runs over files that add particles. *)
From Coq Require Import Permutation.
From Verif Require Import F64 Model_text Proof_text Model_corr Model_track Spec_track Spec_track2 Proof_track_ex Proof_unread Proof_keep Proof_grow Model_fb Spec_fb Proof_fb Proof_keep2 Prop_fb Proof_rerun Prop_rerun
  Model_io Spec_io Proof_io Proof_io2 Proof_io3 Proof_io4 Model_files Spec_files Proof_files Proof_files2 Proof_files3 Proof_files4 Proof_files5 Proof_files6 Lib Base.
Local Open Scope Z_scope.

Lemma tame_new (R : list pinfo) l1 l2 pt : Forall2 Kp R l1 -> Forall (newp pt) l2 -> (forall p, In p R -> fresh_particle p) -> forall q, In q (l1 ++ l2) -> tame q.
Proof.
  intros F N E q Hq. apply in_app_or in Hq as [Hq|Hq].
  - clear - F E Hq. induction F as [|x y l m (_ & _ & HK) F IH]; [destruct Hq|]. destruct Hq as [<-|Hq]; [|apply IH; auto; intros p Hp; apply E; now right].
    apply HK. destruct (E x (or_introl eq_refl)) as (A & B). split; auto.
  - rewrite Forall_forall in N. apply N. exact Hq.
Qed.
(** links of a whole run are exact integers *)
Lemma links_exact first last (W : Z -> frame) : (forall n, first <= n <= last -> Z.of_nat (length (fr_path (W n))) <= 2 ^ 53) ->
  (forall n q, first <= n <= last -> In q (fr_path (W n)) -> tame q) ->
  (forall n, first <= n < last -> mutual (fr_path (W n)) (fr_path (W (n + 1)))) ->
  (forall p, In p (fr_path (W first)) -> p_prev p = PREV_NONE) -> (forall p, In p (fr_path (W last)) -> p_next p = NEXT_NONE) ->
  forall n q, first <= n <= last -> In q (fr_path (W n)) -> exact_int (p_prev q) /\ exact_int (p_next q).
Proof.
  intros LEN TA MU M4 M5 n q Hn Hq. destruct (TA n q Hn Hq) as (T1 & T2). pose proof Hq as Hq'. apply In_nth_error in Hq' as (k & Hk). unfold exact_int. split.
  - destruct T1 as [->|T1]; [unfold PREV_NONE; lia|]. destruct (Z.eq_dec n first) as [->|D]; [rewrite (M4 q Hq); unfold PREV_NONE; lia|].
    pose proof (MU (n - 1) ltac:(lia) (Z.to_nat (p_prev q)) k) as M. replace (n - 1 + 1) with n in M by lia. unfold prev_of, next_of in M. rewrite Hk, Z2Nat.id in M by lia.
    destruct M as (_ & M). specialize (M eq_refl). destruct (nth_error (fr_path (W (n - 1))) (Z.to_nat (p_prev q))) eqn:X; [|unfold NEXT_NONE in M; lia].
    assert (Z.to_nat (p_prev q) < length (fr_path (W (n - 1)%Z)))%nat by (apply nth_error_Some; congruence). pose proof (LEN (n - 1) ltac:(lia)). lia.
  - destruct T2 as [->|T2]; [unfold NEXT_NONE; lia|]. destruct (Z.eq_dec n last) as [->|D]; [rewrite (M5 q Hq); unfold NEXT_NONE; lia|].
    pose proof (MU n ltac:(lia) k (Z.to_nat (p_next q))) as M. unfold prev_of, next_of in M. rewrite Hk, Z2Nat.id in M by lia.
    destruct M as (M & _). specialize (M eq_refl). destruct (nth_error (fr_path (W (n + 1))) (Z.to_nat (p_next q))) eqn:X; [|unfold PREV_NONE in M; lia].
    assert (Z.to_nat (p_next q) < length (fr_path (W (n + 1)%Z)))%nat by (apply nth_error_Some; congruence). pose proof (LEN (n + 1) ltac:(lia)). lia.
Qed.
Lemma F2_in {A} (P : A -> A -> Prop) l m y : Forall2 P l m -> In y m -> exists x, In x l /\ P x y.
Proof. intros H. induction H as [|a b l m HP H IH]; intros I; [destruct I|]. destruct I as [<-|I]; [exists a; split; auto; now left|]. destruct (IH I) as (x & X & Y). exists x. split; auto. now right. Qed.
Lemma good_grown bases pt f g : (1 <= length bases <= 4)%nat -> fits f -> shape bases f -> roomy f -> (forall v, vec_floats (pt v)) -> Gf pt f g -> frame_ok g ->
  (forall q, In q (fr_path g) -> exact_int (p_prev q) /\ exact_int (p_next q)) -> good g.
Proof.
  intros Hb (F1 & F2 & F3 & F4) (S1 & S2 & S3 & S4) (R1 & R2) HP G (FG & _) Q. destruct G as ((l1 & l2 & A1 & A2 & A3) & B & C & D & E & U & _).
  assert (LT : map (@length target) (fr_targ g) = map (@length target) (fr_targ f)) by (eapply FF_len; eauto).
  change (unused_targets f) with (usum (fr_targ f)) in R1.
  split; [exact FG|]. split; [lia|]. split; [|split; [|split; [now apply C|]]].
  - rewrite D, S3. rewrite <- (map_map (@length target) Z.of_nat (fr_targ g)), LT. now rewrite map_map.
  - apply Forall_forall. intros p Hp. apply in_map_iff in Hp as (q & <- & Hq). destruct (Q q Hq) as (Q1 & Q2).
    assert (X : vec_floats (p_x q) /\ exact_int (p_prio q)).
    { rewrite A1 in Hq. apply in_app_or in Hq as [Hq|Hq].
      - destruct (F2_in _ _ _ _ A2 Hq) as (p & Hp & K1 & K2 & _). rewrite K1, K2. now apply F4.
      - rewrite Forall_forall in A3. destruct (A3 q Hq) as (K1 & _ & v & K2). rewrite K1, K2. split; [apply HP|]. unfold exact_int, PRIO_DEFAULT. lia. }
    destruct X as (V & P). unfold path_ok, of_pinfo. destruct (p_x q) as [[x y] z]. cbn [pr_x pr_prev pr_next pr_prio]. destruct V as (V1 & V2 & V3). auto 10.
  - assert (MB : Z.of_nat (length (fr_path g)) <= 2 ^ 53) by lia.
    clear - E F3 MB. induction E as [|x y l m H E IH]; inversion F3; subst; constructor; auto. clear - H H2 MB.
    induction H as [|t u l m HR H IH]; inversion H2; subst; constructor; auto. destruct HR as [->|(v & V & ->)]; auto.
    destruct H3 as (T1 & T2 & T3 & T4 & T5 & T6 & T7). unfold target_ok. cbn [set_tnr t_pnr t_n t_nx t_ny t_sumg t_tnr t_x t_y]. repeat (split; auto). unfold exact_int. lia.
Qed.

Section G2.
Variable can_write : text -> bool.
Variables cb lb pb : text.
Variable bases : list text.
Variable psort : list (f64 * Z) -> list (f64 * Z).
Hypothesis psort_perm : forall l, Permutation l (psort l).
Variable pixdist : f64 -> f64 -> f64 -> f64 -> f64.
Hypothesis ncam_ok : (1 <= length bases <= 4)%nat.
Variables imx imy : Z.
Variable ptp : Z -> vec -> f64 * f64.
Variable quader : Z -> vec -> f64 * f64 * f64 * f64.
Variable moving : vec -> vec -> vec.
Variable extrap : vec -> vec -> vec -> vec.
Variable sub : vec -> vec -> vec.
Variable norm : vec -> vec -> f64.
Variable angle : vec -> vec -> vec -> f64 * f64.
Variable flat : Z -> f64 -> f64 -> f64 * f64.
Variable point : list (f64 * f64) -> vec.
Variable tp : tpar.
Variable vl : vol.
Local Notation fstep := (trackcorr_step psort pixdist (Z.of_nat (length bases)) imx imy ptp quader moving extrap sub norm angle flat point tp vl).
Variables first last : Z.
Variables e0 e1 e2 e3 : frame.
Variable R : Z -> frame.
Hypothesis Hl : first < last.
Local Notation hi := (Z.max last (first + 2)).
Hypothesis L : layout can_write cb lb pb bases first hi.
Hypothesis He : last <= first + 2 -> frame_ok e2 \/ unread e2.
Theorem run_facts_add fs buf fs' nl :
  (forall n, first <= n <= hi -> file_read cb lb pb bases fs n false = Ok (R n) /\ frame_ok (R n)) ->
  forward_run can_write cb lb pb bases fstep first last ([e0; e1; e2; e3], fs) = Ok ((buf, fs'), nl) ->
  (exists W, (forall n, first <= n <= last -> writable bases (W n) /\ Gf point (R n) (W n) /\ frame_ok (W n) /\ contents cb lb pb bases fs' n = want (W n)) /\
    (forall n, first <= n < last -> mutual (fr_path (W n)) (fr_path (W (n + 1)))) /\
    (forall p, In p (fr_path (W first)) -> p_prev p = PREV_NONE) /\ (forall p, In p (fr_path (W last)) -> p_next p = NEXT_NONE)) /\
  (forall t, ~ file_in cb lb pb bases first last t -> fs' t = fs t).
Proof.
  intros HR H.
  apply (forward_sim frame files cell (file_read cb lb pb bases) (file_write can_write cb lb pb bases) (kparse cb lb pb bases first) kstore fstep
    (ksim cb lb pb bases first hi fs) (fun n => first <= n <= hi)) with (b := ([e0; e1; e2; e3], kstart cb lb pb bases first hi fs)) in H as ([b' d'] & H & E & S1 & S2); auto.
  2:{ intros w d n l. eapply ksim_read; eauto. }
  2:{ intros w d f n w'. eapply ksim_write; eauto. }
  2:{ lia. }
  2:{ split; [reflexivity|]. apply kstart_sim. }
  cbn [fst snd] in *. subst b'.
  assert (RD : forall n, first <= n <= hi -> kparse cb lb pb bases first false (kstart cb lb pb bases first hi fs n) = Ok (R n)).
  { intros n Hn. rewrite kstart_in by auto. cbn [kparse]. rewrite <- (cparse_ok _ _ _ _ _ _ _ L) by auto. apply HR; auto. }
  pose proof H as H0.
  apply (run_grows psort psort_perm pixdist (length bases) ncam_ok imx imy ptp quader moving extrap sub norm angle flat point tp vl cell _ _ first last e0 e1 e2 e3 _ R) in H0 as (W & W1); auto.
  2:{ intros n Hn. split; [now apply RD|]. now apply HR. }
  apply C13_forward_run in H as (W' & M1 & M2 & M3 & M4 & M5 & _); auto.
  2:{ intros n f Hf. apply (kstart_out _ _ _ _ _ _ _ L) in Hf as (Hn & Hf). destruct (HR n Hn) as (E & F). rewrite E in Hf. injection Hf as <-. split; auto.
      apply read_shape in E as (_ & _ & _ & _ & _ & E); auto. }
  assert (EW : forall n, first <= n <= last -> W' n = W n).
  { intros n Hn. destruct (W1 n Hn) as (X & _). rewrite (M1 n Hn) in X. now injection X. }
  split.
  - exists W. split; [|split; [|split]].
    + intros n Hn. destruct (S1 n ltac:(lia)) as (o & X & Y). destruct (W1 n Hn) as (X' & K & K2). rewrite X' in X. unfold kstore in X.
      assert (X1 : want (W n) = contents cb lb pb bases fs' n) by congruence. assert (X2 : o = Some (W n)) by congruence. auto.
    + intros n Hn. rewrite <- !EW by lia. now apply M3.
    + rewrite <- EW by lia. exact M4.
    + rewrite <- EW by lia. exact M5.
  - intros t Ht. destruct (file_in_dec cb lb pb bases first hi t) as [(n & Hn & I)|N]; [|now apply S2].
    destruct (S1 n ltac:(lia)) as (o & X & _). rewrite (M2 n) in X by (intros Q; apply Ht; exists n; auto). rewrite kstart_in in X by lia.
    assert (X1 : contents cb lb pb bases fs n = contents cb lb pb bases fs' n) by congruence.
    symmetry. revert I. apply (proj1 (same_files cb lb pb bases fs fs' n)). exact X1.
Qed.
End G2.

(** grown frames as they are read back *)
Lemma grown_back pt (f g h : frame) : Gf pt f g -> same_particles g h -> fr_num h = Z.of_nat (length (fr_path h)) -> more_particles f h.
Proof.
  intros ((l1 & l2 & A1 & A2 & A3) & B & C & D & E & U & _) (P1 & P2 & P3 & P4 & P5) N.
  assert (UE : forall a b, Forall2 (Forall2 (same_target 4)) a b -> usum b = usum a).
  { clear. intros a b H. unfold usum. f_equal. induction H as [|x y l m F H IH]; cbn [map]; [reflexivity|]. f_equal; auto. unfold ucnt. clear - F.
    induction F as [|t u l m (_ & _ & _ & _ & _ & T & _) F IH]; [reflexivity|]. cbn [filter]. assert (X : free u = free t) by (unfold free; now rewrite T). rewrite X. destruct (free t); cbn [length]; auto. }
  split; [|split; [exact N|split; [|split; [congruence|]]]].
  - rewrite A1 in P2. apply Forall2_app_inv_l in P2 as (m1 & m2 & Q1 & Q2 & Q3). exists m1, m2. split; auto. split.
    + clear - A2 Q1. revert m1 Q1. induction A2 as [|p q l m (K1 & K2 & _) A2 IH]; intros m1 Q1; inversion Q1 as [|? r ? m' (S1 & S2) Q1']; subst; constructor; auto.
      split; [|congruence]. unfold same_position in *. rewrite <- K1. exact S1.
    + clear - A3 Q2. induction Q2 as [|p q l m (_ & S2) Q2 IH]; inversion A3 as [|? ? (N1 & _) A3']; subst; constructor; auto. congruence.
  - clear - E P4. revert P4. generalize (fr_targ h). induction E as [|x y l m F E IH]; intros z P4; inversion P4 as [|? w ? z' G P4']; subst; constructor; auto. clear - F G.
    revert w G. induction F as [|t u l m HR F IH]; intros w G; inversion G as [|? s ? w' T G']; subst; constructor; auto.
    unfold same_detection. destruct T as (T1 & T2 & T3 & T4 & T5 & T6 & T7 & T8). unfold same_target. destruct HR as [->|(v & _ & ->)]; cbn [set_tnr t_pnr t_n t_nx t_ny t_sumg t_tnr t_x t_y] in *; auto 10.
  - change (unused_targets h) with (usum (fr_targ h)). change (unused_targets f) with (usum (fr_targ f)). rewrite (UE _ _ P4). rewrite (F2_len _ _ _ P2). exact U.
Qed.
