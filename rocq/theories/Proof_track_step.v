(** One whole tracking step, for arbitrary geometry: links are mutual, frames only grow. *)
From Coq Require Import Permutation.
From Verif Require Import Base Lib F64 Model_corr Model_cand Spec_cand Model_track Spec_track Proof_track_rank Proof_track_reg Proof_track_link.
Local Open Scope Z_scope.

(** ---- linking keeps links mutual, whatever the decision values are ---- *)
Definition Inv2 (cur0 nxt0 : list pinfo) (m : nat) (st : list pinfo * list pinfo * Z) : Prop :=
  let '(cur, nxt, cnt) := st in
  length cur = length cur0 /\ length nxt = length nxt0 /\
  (forall h p, nth_error cur0 h = Some p -> exists q, nth_error cur h = Some q /\ same_but_next p q /\
     ((m <= h)%nat -> q = p) /\
     ((h < m)%nat -> p_next q = NEXT_NONE \/ exists k, p_next q = Z.of_nat k /\ prev_of nxt k = Z.of_nat h)) /\
  (forall k r, nth_error nxt0 k = Some r -> exists s, nth_error nxt k = Some s /\ same_but_prev r s /\
     (p_prev s = PREV_NONE \/ exists h, (h < m)%nat /\ p_prev s = Z.of_nat h /\ next_of cur h = Z.of_nat k)).

Lemma prev_of_nth nxt k s : nth_error nxt k = Some s -> prev_of nxt k = p_prev s.
Proof. unfold prev_of. now intros ->. Qed.
Lemma next_of_nth cur h s : nth_error cur h = Some s -> next_of cur h = p_next s.
Proof. unfold next_of. now intros ->. Qed.
Lemma prev_of_upd nxt k k' v : (k < length nxt)%nat ->
  prev_of (upd nxt k v) k' = if (k' =? k)%nat then p_prev v else prev_of nxt k'.
Proof.
  intros H. unfold prev_of. rewrite nth_error_upd. apply Nat.ltb_lt in H. rewrite H. destruct (k' =? k)%nat; auto.
Qed.
Lemma next_of_upd nxt k k' v : (k < length nxt)%nat ->
  next_of (upd nxt k v) k' = if (k' =? k)%nat then p_next v else next_of nxt k'.
Proof.
  intros H. unfold next_of. rewrite nth_error_upd. apply Nat.ltb_lt in H. rewrite H. destruct (k' =? k)%nat; auto.
Qed.

Lemma step2_ok cur0 nxt0 m st : ready_weak cur0 nxt0 -> (m < length cur0)%nat -> Inv2 cur0 nxt0 m st ->
  exists st', link_one st (Z.of_nat m) = Ok st' /\ Inv2 cur0 nxt0 (S m) st'.
Proof.
  destruct st as [[cur nxt] cnt]. intros (R1 & R2) Hm (I1 & I2 & I3 & I4).
  destruct (nth_error cur0 m) as [p|] eqn:Ep; [|apply nth_error_None in Ep; lia].
  destruct (I3 m p Ep) as (q & Q1 & Q2 & Q3 & _). specialize (Q3 (le_n m)). subst q.
  unfold link_one. rewrite (pyget_nonneg cur (Z.of_nat m) p) by (try lia; now rewrite Nat2Z.id). cbn [bind].
  pose proof (R1 m p Ep) as Rp. rewrite Z.gtb_ltb.
  assert (Lmc : (m < length cur)%nat) by lia.
  destruct (Z.ltb_spec 0 (p_inlist p)) as [Hin|Hin].
  - set (k := Z.to_nat (p_next p)). assert (Ek : p_next p = Z.of_nat k) by (unfold k; lia).
    destruct (nth_error nxt0 k) as [r0|] eqn:Er0; [|apply nth_error_None in Er0; unfold k in Er0; lia].
    destruct (I4 k r0 Er0) as (r & Er & Sr & Pr).
    assert (Lnx : (k < length nxt)%nat) by (apply nth_error_Some; congruence).
    rewrite Ek. rewrite (pyget_nonneg nxt (Z.of_nat k) r) by (try lia; now rewrite Nat2Z.id). cbn [bind].
    assert (SP : forall v, same_but_prev r0 (set_prev r v)).
    { intros v. destruct Sr as (x & ->). exists v. reflexivity. }
    assert (PK : prev_of nxt k = p_prev r) by now apply prev_of_nth.
    destruct Pr as [Prn|(w & Lw & Prw & Nw)].
    + rewrite Prn. change (PREV_NONE =? PREV_NONE) with true. cbn iota. rewrite pyset_in_range by lia. cbn [bind].
      rewrite (pyget_nonneg cur (Z.of_nat m) p) by (try lia; now rewrite Nat2Z.id). cbn [bind].
      eexists. split; [reflexivity|]. rewrite Nat2Z.id.
      split; auto. split; [now rewrite upd_length|]. split.
      * intros h ph Hh. destruct (I3 h ph Hh) as (q & A & B & C & D). exists q. split; auto. split; auto.
        split; [intros; apply C; lia|]. intros Lh. destruct (Nat.eq_dec h m) as [->|N].
        -- right. exists k. assert (q = p) as -> by congruence. split; auto.
           rewrite prev_of_upd, Nat.eqb_refl by auto. reflexivity.
        -- destruct (D ltac:(lia)) as [D1|(k' & D1 & D2)]; auto. right. exists k'. split; auto.
           rewrite prev_of_upd by auto. destruct (Nat.eqb_spec k' k) as [->|]; auto.
           rewrite PK, Prn in D2. unfold PREV_NONE in D2. lia.
      * intros k' rr Hr. destruct (Nat.eq_dec k' k) as [->|N].
        -- assert (rr = r0) as -> by congruence. exists (set_prev r (Z.of_nat m)). split; [now apply nth_error_upd_eq|]. split; auto.
           right. exists m. split; auto. split; auto. rewrite (next_of_nth _ _ _ Q1). auto.
        -- destruct (I4 k' rr Hr) as (s & A & B & C). exists s. split; [now rewrite nth_error_upd_neq|]. split; auto.
           destruct C as [C|(h & C1 & C2 & C3)]; auto. right. exists h. auto.
    + rewrite Prw. destruct (Z.eqb_spec (Z.of_nat w) PREV_NONE) as [E|_]; [unfold PREV_NONE in E; lia|].
      destruct (nth_error cur w) as [qw|] eqn:Ew; [|apply nth_error_None in Ew; lia].
      rewrite (pyget_nonneg cur (Z.of_nat w) qw) by (try lia; now rewrite Nat2Z.id). cbn [bind].
      destruct (fgt (p_final qw) (p_final p)).
      * rewrite pyset_in_range by lia. cbn [bind]. rewrite pyset_in_range by lia. cbn [bind]. rewrite !Nat2Z.id.
        assert (Hmm : nth_error (upd cur w (set_next qw NEXT_NONE)) m = Some p) by (rewrite nth_error_upd_neq by lia; auto).
        rewrite (pyget_nonneg _ (Z.of_nat m) p) by (try lia; now rewrite Nat2Z.id).
        cbn [bind]. eexists. split; [reflexivity|].
        split; [now rewrite upd_length|]. split; [now rewrite upd_length|]. split.
        -- intros h ph Hh. destruct (I3 h ph Hh) as (q & A & B & C & D). destruct (Nat.eq_dec h w) as [->|Nhw].
           ++ assert (q = qw) as -> by congruence. exists (set_next qw NEXT_NONE).
              split; [apply nth_error_upd_eq; lia|]. split; [destruct B as (x & ->); exists NEXT_NONE; reflexivity|].
              split; [lia|]. auto.
           ++ exists q. split; [now rewrite nth_error_upd_neq|]. split; auto. split; [intros; apply C; lia|].
              intros Lh. destruct (Nat.eq_dec h m) as [->|N].
              ** right. exists k. assert (q = p) as -> by congruence. split; auto.
                 rewrite prev_of_upd, Nat.eqb_refl by auto. reflexivity.
              ** destruct (D ltac:(lia)) as [D1|(k' & D1 & D2)]; auto. right. exists k'. split; auto.
                 rewrite prev_of_upd by auto. destruct (Nat.eqb_spec k' k) as [->|]; auto.
                 rewrite PK, Prw in D2. lia.
        -- intros k' rr Hr. destruct (Nat.eq_dec k' k) as [->|N].
           ++ assert (rr = r0) as -> by congruence. exists (set_prev r (Z.of_nat m)). split; [now apply nth_error_upd_eq|]. split; auto.
              right. exists m. split; auto. split; auto. rewrite (next_of_nth _ _ _ Hmm). auto.
           ++ destruct (I4 k' rr Hr) as (s & A & B & C). exists s. split; [now rewrite nth_error_upd_neq|]. split; auto.
              destruct C as [C|(h & C1 & C2 & C3)]; auto. right. exists h. split; [lia|]. split; auto.
              rewrite next_of_upd by lia. destruct (Nat.eqb_spec h w) as [->|]; auto. exfalso. apply N. lia.
      * rewrite pyset_in_range by lia. cbn [bind]. rewrite Nat2Z.id.
        rewrite (pyget_nonneg _ (Z.of_nat m) (set_next p NEXT_NONE)).
        2:lia. 2:{ rewrite Nat2Z.id, nth_error_upd_eq by lia. auto. }
        cbn [bind]. eexists. split; [reflexivity|].
        split; [now rewrite upd_length|]. split; auto. split.
        -- intros h ph Hh. destruct (I3 h ph Hh) as (q & A & B & C & D). destruct (Nat.eq_dec h m) as [->|Nhm].
           ++ exists (set_next p NEXT_NONE). split; [apply nth_error_upd_eq; lia|]. assert (ph = p) as -> by congruence.
              split; [exists NEXT_NONE; auto|]. split; [lia|]. auto.
           ++ exists q. split; [now rewrite nth_error_upd_neq|]. split; auto. split; [intros; apply C; lia|].
              intros Lh. apply D. lia.
        -- intros k' rr Hr. destruct (I4 k' rr Hr) as (s & A & B & C). exists s. split; auto. split; auto.
           destruct C as [C|(h & C1 & C2 & C3)]; auto. right. exists h. split; [lia|]. split; auto.
           rewrite next_of_upd by lia. destruct (Nat.eqb_spec h m) as [->|]; auto. lia.
  - cbn [bind]. rewrite (pyget_nonneg cur (Z.of_nat m) p) by (try lia; now rewrite Nat2Z.id). cbn [bind].
    eexists. split; [reflexivity|]. split; auto. split; auto. split.
    + intros h ph Hh. destruct (I3 h ph Hh) as (q & A & B & C & D). exists q. split; auto. split; auto.
      split; [intros; apply C; lia|]. intros Lh. destruct (Nat.eq_dec h m) as [->|N]; [|apply D; lia].
      left. assert (q = p) as -> by congruence. auto.
    + intros k rr Hr. destruct (I4 k rr Hr) as (s & A & B & C). exists s. split; auto. split; auto.
      destruct C as [C|(h & C1 & C2 & C3)]; auto. right. exists h. split; [lia|]. auto.
Qed.

Theorem link_mutual cur nxt : ready_weak cur nxt ->
  exists cur' nxt' cnt, link_all (Z.of_nat (length cur)) cur nxt = Ok (cur', nxt', cnt) /\
    length cur' = length cur /\ length nxt' = length nxt /\ mutual cur' nxt' /\
    (forall h p, nth_error cur h = Some p -> exists q, nth_error cur' h = Some q /\ same_but_next p q) /\
    (forall k r, nth_error nxt k = Some r -> exists s, nth_error nxt' k = Some s /\ same_but_prev r s).
Proof.
  intros R. unfold link_all.
  destruct (loop_total (fun i st => Inv2 cur nxt (Z.to_nat i) st) link_one 0 (Z.of_nat (length cur)) (cur, nxt, 0)) as (st & E & H).
  - lia.
  - change (Z.to_nat 0) with O. split; auto. split; auto. destruct R as (R1 & R2). split.
    + intros h p Hp. exists p. split; auto. split; [exists (p_next p); destruct p; reflexivity|]. split; auto. lia.
    + intros k r Hr. exists r. split; auto. split; [exists (p_prev r); destruct r; reflexivity|]. eauto.
  - intros i st Hi HI. destruct (step2_ok cur nxt (Z.to_nat i) st R ltac:(lia) HI) as (st' & E & H').
    rewrite Z2Nat.id in E by lia. exists st'. split; auto. now replace (Z.to_nat (i + 1)) with (S (Z.to_nat i)) by lia.
  - rewrite Nat2Z.id in H. destruct st as [[cur' nxt'] cnt]. destruct H as (I1 & I2 & I3 & I4).
    exists cur', nxt', cnt. split; auto. split; auto. split; auto. split; [|split].
    + intros h k. split; intros Hx.
      * unfold next_of in Hx. destruct (nth_error cur' h) as [q|] eqn:Eq; [|unfold NEXT_NONE in Hx; lia].
        assert (h < length cur')%nat by (apply nth_error_Some; congruence).
        destruct (nth_error cur h) as [p|] eqn:Ep; [|apply nth_error_None in Ep; lia].
        destruct (I3 h p Ep) as (q' & A & B & C & D). assert (q' = q) as -> by congruence.
        destruct (D ltac:(lia)) as [D1|(k' & D1 & D2)]; [unfold NEXT_NONE in *; lia|]. assert (k' = k) as -> by lia. auto.
      * unfold prev_of in Hx. destruct (nth_error nxt' k) as [s|] eqn:Es; [|unfold PREV_NONE in Hx; lia].
        assert (k < length nxt')%nat by (apply nth_error_Some; congruence).
        destruct (nth_error nxt k) as [r|] eqn:Er; [|apply nth_error_None in Er; lia].
        destruct (I4 k r Er) as (s' & A & B & C). assert (s' = s) as -> by congruence.
        destruct C as [C|(h' & C1 & C2 & C3)]; [unfold PREV_NONE in *; lia|]. assert (h' = h) as -> by lia. auto.
    + intros h p Hp. destruct (I3 h p Hp) as (q & A & B & _). eauto.
    + intros k r Hr. destruct (I4 k r Hr) as (s & A & B & _). eauto.
Qed.

(** ---- what a particle may collect during a step ---- *)
(** candidates registered so far are indices below [N] *)
Definition cands_ok (N : Z) (p : pinfo) : Prop :=
  0 <= p_inlist p /\ p_inlist p <= Z.of_nat (length (p_decis p)) /\ p_inlist p <= Z.of_nat (length (p_link p)) /\
  forall j v, Z.of_nat j < p_inlist p -> nth_error (p_link p) j = Some v -> 0 <= v < N.
Definition same_core (p q : pinfo) : Prop := p_x q = p_x p /\ p_prev q = p_prev p /\ p_next q = p_next p /\ p_prio q = p_prio p.

Lemma cands_ok_mono N M p : N <= M -> cands_ok N p -> cands_ok M p.
Proof. intros H (A & B & C & D). repeat split; auto; destruct (D j v H0 H1); lia. Qed.
Lemma same_core_refl p : same_core p p.
Proof. repeat split. Qed.
Lemma same_core_trans p q r : same_core p q -> same_core q r -> same_core p r.
Proof. unfold same_core. intuition congruence. Qed.

Lemma register_link_ok N p d v p' : cands_ok N p -> 0 <= v < N -> register_link_candidate p d v = Ok p' ->
  cands_ok N p' /\ same_core p p'.
Proof.
  intros (A & B & C & D) Hv H. unfold register_link_candidate in H.
  apply bind_ok in H as (dl & Hd & H). apply bind_ok in H as (ll & Hl & H). injection H as <-.
  apply pyset_ok in Hd as (Ld & ->); auto. apply pyset_ok in Hl as (Ll & ->); auto.
  split; [|repeat split]. unfold cands_ok. cbn [p_inlist p_decis p_link]. rewrite !upd_length.
  split; [lia|]. split; [lia|]. split; [lia|]. intros j w Hj Hw. rewrite nth_error_upd in Hw.
  apply Nat.ltb_lt in Ll. rewrite Ll in Hw. destruct (Nat.eqb_spec j (Z.to_nat (p_inlist p))).
  - injection Hw as <-. auto.
  - apply (D j w); auto. lia.
Qed.

Lemma only_added_refl f : only_added f f.
Proof. exists []. rewrite app_nil_r. auto. Qed.
Lemma only_added_trans f g h : only_added f g -> only_added g h -> only_added f h.
Proof.
  intros (l & E & F) (m & E' & F'). exists (l ++ m). rewrite E', E, app_assoc. split; auto. apply Forall_app; auto.
Qed.

Lemma add_particle_ok nc frm pos inds frm' : frame_ok frm -> 0 <= nc ->
  add_particle nc frm pos inds = Ok frm' ->
  frame_ok frm' /\ fr_path frm' = fr_path frm ++ [new_pinfo pos].
Proof.
  intros (F1 & F2) Hnc H. unfold add_particle in H. destruct (_ >? _); [discriminate|].
  apply bind_ok in H as ([cor targ] & H & H'). injection H' as <-. cbn [fr_path fst snd].
  split; auto. split; [cbn [fr_num fr_path]; rewrite app_length; simpl; lia|]. cbn [fr_targ].
  apply (foldM_inv (fun _ '(_, targ) => forall tl t, In tl targ -> In t tl -> -1 <= t_tnr t)) in H; auto.
  intros done cam rest [c0 t0] [c1 t1] _ HI Hs.
  apply bind_ok in Hs as (row & _ & Hs). apply bind_ok in Hs as (c' & _ & Hs). apply bind_ok in Hs as (ix & _ & Hs).
  destruct (ix =? PT_UNUSED); [injection Hs as <- <-; auto|].
  apply bind_ok in Hs as (tl & Htl & Hs). apply bind_ok in Hs as (t & Ht & Hs). apply bind_ok in Hs as (tl' & Htl' & Hs).
  apply bind_ok in Hs as (targ' & Htg & Hs). apply bind_ok in Hs as (c'' & _ & Hs). injection Hs as <- <-.
  assert (UPD : forall A (l : list A) i v l' x, pyset l i v = Ok l' -> In x l' -> x = v \/ In x l).
  { intros A l i v l' x E Hx. unfold pyset in E. destruct (pyidx _ _) as [k|]; [|discriminate]. injection E as <-.
    apply In_nth_error in Hx as (j & Hj). rewrite nth_error_upd in Hj. destruct (j =? k)%nat.
    - destruct (k <? length l)%nat; [|discriminate]. injection Hj as <-. auto.
    - right. eapply nth_error_In; eauto. }
  assert (GET : forall A (l : list A) i v, pyget l i = Ok v -> In v l).
  { intros A l i v E. unfold pyget in E. destruct (pyidx _ _) as [k|]; [|discriminate].
    destruct (nth_error l k) eqn:En; [|discriminate]. injection E as <-. eapply nth_error_In; eauto. }
  intros tl0 t2 Hin Ht2. destruct (UPD _ _ _ _ _ _ Htg Hin) as [->|Hin']; [|eauto].
  destruct (UPD _ _ _ _ _ _ Htl' Ht2) as [->|Ht2']; [cbn; lia|]. eapply HI; eauto.
Qed.

Lemma while_inv {S} (P : S -> Prop) l go (body : foundpix -> S -> result S) s s' :
  while_cands l go body s = Ok s' -> P s ->
  (forall f s s1, In f l -> go f s = true -> P s -> body f s = Ok s1 -> P s1) -> P s'.
Proof.
  revert s. induction l as [|f l IH]; intros s H HP Hs; cbn [while_cands] in H; [discriminate|].
  destruct (go f s) eqn:Eg; [|congruence]. apply bind_ok in H as (s1 & H1 & H).
  eapply IH; eauto.
  - eapply Hs; eauto. now left.
  - intros; eapply Hs; eauto. now right.
Qed.

Ltac binds H := repeat match type of H with
  | (do _ <- ?m; _) = Ok _ => let x := fresh "x" in let E := fresh "E" in apply bind_ok in H as (x & E & H)
  end.

Section Step.
Variable psort : list (f64 * Z) -> list (f64 * Z).
Hypothesis psort_perm : forall l, Permutation l (psort l).
Variable pixdist : f64 -> f64 -> f64 -> f64 -> f64.
Variable ncam : nat.
Hypothesis ncam_ok : (1 <= ncam <= 4)%nat.
Variables imx imy : Z.
Variable point_to_pixel : Z -> vec -> f64 * f64.
Variable searchquader : Z -> vec -> f64 * f64 * f64 * f64.
Variable moving : vec -> vec -> vec.
Variable extrap : vec -> vec -> vec -> vec.
Variable vec_subt : vec -> vec -> vec.
Variable vec_diff_norm : vec -> vec -> f64.
Variable angle_acc : vec -> vec -> vec -> f64 * f64.
Variable to_flat : Z -> f64 -> f64 -> f64 * f64.
Variable point_position : list (f64 * f64) -> vec.
Variable tp : tpar.
Variable vl : vol.
Let nc := Z.of_nat ncam.

(** every candidate of a volume is -1 or a number found on a target of the frame *)
Lemma volume_ids center proj frm w f : frame_ok frm ->
  sorted_candidates_in_volume pixdist nc imx imy searchquader center proj frm = Ok w -> In f w -> -1 <= ftnr f.
Proof.
  intros (F1 & F2) H Hf.
  destruct (volume_exact pixdist ncam imx imy searchquader center proj frm w ncam_ok H) as (ids & L & HC & (d & R0 & R1 & _)).
  apply In_nth_error in Hf as (k & Hk). specialize (R1 k f Hk). destruct (k <? d)%nat; [|lia].
  destruct R1 as (_ & _ & _ & (i & Hi & _)).
  assert (i < length ids)%nat by (apply nth_error_Some; congruence).
  pose proof (Nat.div_mod i 4 ltac:(lia)) as DM. pose proof (Nat.mod_upper_bound i 4 ltac:(lia)) as MB.
  destruct (HC (i / 4)%nat ltac:(lia)) as (tl & nt & q & p & T1 & T2 & T3 & T4 & T5 & T6).
  destruct (T6 (i mod 4)%nat (ftnr f)) as (j & t & J1 & J2 & J3).
  { rewrite nth_error_firstn by auto. rewrite nth_error_skipn, <- DM. auto. }
  rewrite J3. apply (F2 tl t); [eapply nth_error_In; eauto|].
  unfold cand_target in J2. destruct (j =? -1); eapply nth_error_In; eauto.
Qed.

Local Notation second_loop := (second_loop vec_subt vec_diff_norm angle_acc tp vl).
Local Notation first_body := (first_body pixdist nc imx imy point_to_pixel searchquader moving extrap vec_subt vec_diff_norm angle_acc to_flat point_position tp vl).
Local Notation track_one := (track_one pixdist nc imx imy point_to_pixel searchquader moving extrap vec_subt vec_diff_norm angle_acc to_flat point_position tp vl).
Local Notation trackcorr_step := (trackcorr_step psort pixdist nc imx imy point_to_pixel searchquader moving extrap vec_subt vec_diff_norm angle_acc to_flat point_position tp vl).

Lemma second_loop_ok N wn f buf3 x1 x2 x3 x5 hp p p' : cands_ok N p -> 0 <= ftnr f < N ->
  second_loop wn f buf3 x1 x2 x3 x5 hp p = Ok p' -> cands_ok N p' /\ same_core p p'.
Proof.
  intros HC Hf H. unfold Model_track.second_loop in H.
  apply (while_inv (fun q => cands_ok N q /\ same_core p q)) in H; auto using same_core_refl.
  intros g s s1 _ _ (S1 & S2) Hs. apply bind_ok in Hs as (q & _ & Hs).
  destruct (pos3d_in_bounds tp _); [|injection Hs as <-; auto].
  destruct (angle_acc x3 (p_x q) x5) as [a1 c1]. destruct (if hp then _ else _) as [a0 c0].
  destruct (acceptable tp _ _); [|injection Hs as <-; auto].
  apply (register_link_ok N) in Hs as (A & B); auto. split; auto. eapply same_core_trans; eauto.
Qed.

Definition SI (p0 : pinfo) (b2 b3 : frame) (s : pinfo * frame * frame) : Prop :=
  let '(p, buf2, buf3) := s in
  same_core p0 p /\ cands_ok (Z.of_nat (length (fr_path b2))) p /\ buf2 = b2 /\ frame_ok buf3 /\ only_added b3 buf3.

Lemma first_body_ok p0 b2 b3 x0 x1 x2 f s s' : 0 <= ftnr f < Z.of_nat (length (fr_path b2)) ->
  SI p0 b2 b3 s -> first_body x0 x1 x2 f s = Ok s' -> SI p0 b2 b3 s'.
Proof.
  destruct s as [[p buf2] buf3]. intros Hf (S1 & S2 & -> & S4 & S5) H. unfold Model_track.first_body in H.
  apply bind_ok in H as (q & _ & H). apply bind_ok in H as (wn & _ & H). apply bind_ok in H as (p1 & Hp1 & H).
  assert (G1 : same_core p0 p1 /\ cands_ok (Z.of_nat (length (fr_path b2))) p1).
  { destruct (_ >? 1); [|injection Hp1 as <-; auto].
    apply (second_loop_ok (Z.of_nat (length (fr_path b2)))) in Hp1 as (A & B); auto. split; auto. eapply same_core_trans; eauto. }
  clear Hp1. destruct G1 as (G1 & G2).
  apply bind_ok in H as ([[quali v2] philf] & _ & H). apply bind_ok in H as ([p2 b3'] & Hp2 & H).
  assert (G3 : same_core p0 p2 /\ cands_ok (Z.of_nat (length (fr_path b2))) p2 /\ frame_ok b3' /\ only_added b3 b3').
  { destruct (2 <=? quali); [|injection Hp2 as <- <-; auto].
    destruct (in_volume _ _ _ _ && _); [|injection Hp2 as <- <-; auto].
    destruct (angle_acc _ _ _) as [an ac]. destruct (acceptable tp an ac); [|injection Hp2 as <- <-; auto].
    apply bind_ok in Hp2 as (p3 & Hp3 & Hp2). apply (register_link_ok (Z.of_nat (length (fr_path b2)))) in Hp3 as (A & B); auto.
    assert (same_core p0 p3) by (eapply same_core_trans; eauto).
    destruct (do_add tp); [|injection Hp2 as <- <-; auto].
    apply bind_ok in Hp2 as (b4 & Hb4 & Hp2). injection Hp2 as <- <-.
    apply add_particle_ok in Hb4 as (C & D); auto; [|unfold nc; lia]. split; auto. split; auto. split; auto.
    eapply only_added_trans; eauto. exists [new_pinfo (point_position v2)]. split; auto. repeat constructor. }
  clear Hp2. destruct G3 as (G3 & G4 & G5 & G6).
  apply bind_ok in H as (p4 & Hp4 & H). injection H as <-.
  assert (G7 : same_core p0 p4 /\ cands_ok (Z.of_nat (length (fr_path b2))) p4).
  { destruct (_ && _); [|injection Hp4 as <-; auto]. destruct (pos3d_in_bounds tp _); [|injection Hp4 as <-; auto].
    destruct (angle_acc _ _ _) as [an ac]. destruct (acceptable tp an ac); [|injection Hp4 as <-; auto].
    apply (register_link_ok (Z.of_nat (length (fr_path b2)))) in Hp4 as (A & B); auto. split; auto. eapply same_core_trans; eauto. }
  destruct G7 as (G7 & G8). split; auto.
Qed.

(** one particle: its own row collects candidates, later frames only grow *)
Lemma track_one_ok buf0 b1 b2 b3 h b1' b2' b3' : 0 <= h -> frame_ok b2 -> frame_ok b3 ->
  track_one buf0 (b1, b2, b3) h = Ok (b1', b2', b3') ->
  frame_ok b2' /\ frame_ok b3' /\ only_added b2 b2' /\ only_added b3 b3' /\
  fr_num b1' = fr_num b1 /\ (fr_corr b1', fr_targ b1', fr_numt b1') = (fr_corr b1, fr_targ b1, fr_numt b1) /\
  exists p q, nth_error (fr_path b1) (Z.to_nat h) = Some p /\ fr_path b1' = upd (fr_path b1) (Z.to_nat h) q /\
    same_core p q /\ cands_ok (Z.of_nat (length (fr_path b2'))) q.
Proof.
  intros Hh F2 F3 H. unfold Model_track.track_one in H.
  apply bind_ok in H as (p & Hp & H). apply pyget_ok_iff in Hp; auto.
  apply bind_ok in H as (c & _ & H). apply bind_ok in H as ([[x0 x2] v1] & _ & H).
  apply bind_ok in H as (w & Hw & H). apply bind_ok in H as ([[p' b2x] b3x] & Hs & H).
  apply bind_ok in H as (path & Hpath & H). injection H as <- <- <-.
  apply pyset_ok in Hpath as (Lh & ->); auto.
  assert (G : frame_ok b2x /\ frame_ok b3x /\ only_added b2 b2x /\ only_added b3 b3x /\ same_core p p' /\
              cands_ok (Z.of_nat (length (fr_path b2x))) p').
  { set (rp := reset_inlist p) in *. assert (C0 : same_core p rp) by (repeat split).
    assert (K0 : forall N, cands_ok N rp).
    { intros N. unfold rp, cands_ok, reset_inlist. cbn [p_inlist p_decis p_link]. repeat split; try lia. }
    destruct (_ =? 1).
    { injection Hs as <- <- <-. repeat (split; auto using only_added_refl). }
    apply bind_ok in Hs as ([[p1 b21] b31] & Hwh & Hs).
    apply (while_inv (SI p b2 b3)) in Hwh.
    2:{ split; auto. split; auto. split; auto. split; auto. apply only_added_refl. }
    2:{ intros f s s1 Hf Hgo HSI Hb. destruct s as [[ps bs2] bs3].
        pose proof HSI as (_ & _ & Eb & _). rewrite Eb in Hgo.
        apply andb_true_iff in Hgo as (G1 & G2). apply negb_true_iff, Z.eqb_neq in G1. rewrite Z.gtb_ltb in G2. apply Z.ltb_lt in G2.
        pose proof (volume_ids _ _ _ _ f F2 Hw Hf). unfold TR_UNUSED in G1.
        eapply first_body_ok; eauto. lia. }
    destruct Hwh as (S1 & S2 & -> & S4 & S5).
    assert (BASE : frame_ok b2 /\ frame_ok b31 /\ only_added b2 b2 /\ only_added b3 b31 /\ same_core p p1 /\
              cands_ok (Z.of_nat (length (fr_path b2))) p1) by (repeat (split; auto using only_added_refl)).
    destruct (_ && _); [|injection Hs as <- <- <-; auto].
    apply bind_ok in Hs as ([[quali v2] philf] & _ & Hs).
    destruct (2 <=? quali); [|injection Hs as <- <- <-; auto].
    destruct (in_volume _ _ _ _ && _); [|injection Hs as <- <- <-; auto].
    destruct (angle_acc _ _ _) as [an ac]. destruct (acceptable tp an ac); [|injection Hs as <- <- <-; auto].
    apply bind_ok in Hs as (p2 & Hp2 & Hs). apply bind_ok in Hs as (b22 & Hb & Hs). injection Hs as <- <- <-.
    pose proof F2 as (FN & _).
    apply add_particle_ok in Hb as (A & B); auto; [|unfold nc; lia].
    assert (K2 : cands_ok (Z.of_nat (length (fr_path b22))) p1).
    { eapply cands_ok_mono; [|exact S2]. rewrite B, app_length. lia. }
    assert (V : 0 <= fr_num b2 < Z.of_nat (length (fr_path b22))) by (rewrite FN, B, app_length; simpl; lia).
    destruct (register_link_ok _ _ _ _ _ K2 V Hp2) as (C & D).
    split; auto. split; auto. split; [exists [new_pinfo (point_position v2)]; split; auto; repeat constructor|].
    split; auto. split; auto. exact (same_core_trans _ _ _ S1 D). }
  destruct G as (G1 & G2 & G3 & G4 & G5 & G6). split; auto. split; auto. split; auto. split; auto.
  cbn [fr_num set_path fr_corr fr_targ fr_numt fr_path]. split; auto. split; auto.
  exists p, p'. auto.
Qed.

Definition TI (b1 b2 b3 : frame) (m : nat) (st : frame * frame * frame) : Prop :=
  let '(c1, c2, c3) := st in
  frame_ok c2 /\ frame_ok c3 /\ only_added b2 c2 /\ only_added b3 c3 /\
  length (fr_path c1) = length (fr_path b1) /\ fr_num c1 = fr_num b1 /\
  (fr_corr c1, fr_targ c1, fr_numt c1) = (fr_corr b1, fr_targ b1, fr_numt b1) /\
  forall h p, nth_error (fr_path b1) h = Some p -> exists q, nth_error (fr_path c1) h = Some q /\ same_core p q /\
    ((h < m)%nat -> cands_ok (Z.of_nat (length (fr_path c2))) q).

Lemma track_all_ok buf0 b1 b2 b3 st : frame_ok b1 -> frame_ok b2 -> frame_ok b3 ->
  foldM (track_one buf0) (zrange 0 (fr_num b1)) (b1, b2, b3) = Ok st -> TI b1 b2 b3 (length (fr_path b1)) st.
Proof.
  intros (F1 & _) F2 F3 H.
  apply (foldM_inv (fun done st => TI b1 b2 b3 (length done) st)) in H.
  - rewrite zrange_length in H. replace (Z.to_nat (fr_num b1 - 0)) with (length (fr_path b1)) in H by lia. exact H.
  - split; auto. split; auto. split; [apply only_added_refl|]. split; [apply only_added_refl|]. split; auto. split; auto. split; auto.
    intros h p Hp. exists p. split; auto. split; [apply same_core_refl|]. simpl. lia.
  - intros done h rest [[c1 c2] c3] [[d1 d2] d3] E (A1 & A2 & A3 & A4 & A5 & A6 & A7 & A8) Hs.
    apply zrange_split in E as (_ & Hh & Eh). replace h with (Z.of_nat (length done)) in * by lia.
    apply track_one_ok in Hs as (B1 & B2 & B3 & B4 & B5 & B6 & (p & q & Hp & Hq & Sc & Co)); auto; try lia.
    rewrite Nat2Z.id in *. rewrite app_length. cbn [length].
    split; auto. split; auto. split; [eapply only_added_trans; eauto|]. split; [eapply only_added_trans; eauto|].
    split; [rewrite Hq, upd_length; auto|]. split; [congruence|]. split; [congruence|].
    intros h' p' Hp'. destruct (A8 h' p' Hp') as (q' & Q1 & Q2 & Q3). rewrite Hq.
    destruct (Nat.eq_dec h' (length done)) as [->|N].
    + exists q. rewrite nth_error_upd_eq by (apply nth_error_Some; congruence). split; auto.
      assert (q' = p) as -> by congruence. split; [eapply same_core_trans; eauto|]. auto.
    + exists q'. rewrite nth_error_upd_neq by auto. split; auto. split; auto. intros L.
      eapply cands_ok_mono; [|apply Q3; lia]. destruct B3 as (l & -> & _). rewrite app_length. lia.
Qed.

Lemma decide_ok N p p' : cands_ok N p -> decide psort p = Ok p' ->
  p_inlist p' = p_inlist p /\ p_prev p' = p_prev p /\ p_x p' = p_x p /\
  if 0 <? p_inlist p then 0 <= p_next p' < N else p' = p.
Proof.
  intros (A & B & C & D) H. unfold decide in H. rewrite Z.gtb_ltb in H.
  destruct (Z.ltb_spec 0 (p_inlist p)) as [Hi|Hi]; [|injection H as <-; auto].
  destruct (sort_links_ok psort psort_perm (p_inlist p) (p_decis p) (p_link p) ltac:(lia) ltac:(lia))
    as (a' & b' & E & L1 & L2 & EC & S1 & S2).
  rewrite E in H. cbn [bind fst snd] in H. apply bind_ok in H as (d & Hd & H). apply bind_ok in H as (l & Hl & H).
  injection H as <-. cbn [p_inlist p_prev p_x p_next]. repeat (split; auto).
  all: apply pyget_ok_iff in Hd; [|lia]; apply pyget_ok_iff in Hl; [|lia]; change (Z.to_nat 0) with O in *.
  all: assert (IN : In (d, l) (combine (firstn (Z.to_nat (p_inlist p)) (p_decis p)) (firstn (Z.to_nat (p_inlist p)) (p_link p))));
    [eapply Permutation_in; [symmetry; apply psort_perm|]; rewrite <- EC;
     destruct a' as [|a0 a']; [discriminate|]; destruct b' as [|b0 b']; [discriminate|];
     destruct (Z.to_nat (p_inlist p)) eqn:En; [lia|]; simpl in Hd, Hl; injection Hd as ->; injection Hl as ->; left; reflexivity|].
  all: apply in_combine_r in IN; apply In_nth_error in IN as (j & Hj);
    assert (Lj : (j < length (firstn (Z.to_nat (p_inlist p)) (p_link p)))%nat) by (apply nth_error_Some; congruence);
    rewrite firstn_length in Lj; rewrite nth_error_firstn in Hj by lia; destruct (D j l ltac:(lia) Hj); lia.
Qed.

Lemma decide_all_ok N cur cur' : (forall h p, nth_error cur h = Some p -> cands_ok N p) ->
  decide_all psort (Z.of_nat (length cur)) cur = Ok cur' ->
  length cur' = length cur /\
  forall h p, nth_error cur h = Some p -> exists q, nth_error cur' h = Some q /\
    p_inlist q = p_inlist p /\ p_prev q = p_prev p /\ p_x q = p_x p /\
    if 0 <? p_inlist p then 0 <= p_next q < N else q = p.
Proof.
  intros HC H. unfold decide_all in H.
  apply (foldM_inv (fun done s => length s = length cur /\
    forall h p, nth_error cur h = Some p -> exists q, nth_error s h = Some q /\
      ((length done <= h)%nat -> q = p) /\
      ((h < length done)%nat -> p_inlist q = p_inlist p /\ p_prev q = p_prev p /\ p_x q = p_x p /\
        if 0 <? p_inlist p then 0 <= p_next q < N else q = p))) in H.
  - destruct H as (L & H). split; auto. intros h p Hp. destruct (H h p Hp) as (q & Q1 & _ & Q2). exists q. split; auto.
    apply Q2. rewrite zrange_length. assert (h < length cur)%nat by (apply nth_error_Some; congruence). lia.
  - split; auto. intros h p Hp. exists p. split; auto. split; auto. simpl. lia.
  - intros done h rest s s1 E (L & HI) Hs. apply zrange_split in E as (_ & Hh & Eh).
    replace h with (Z.of_nat (length done)) in * by lia.
    apply bind_ok in Hs as (p & Hp & Hs). apply pyget_ok_iff in Hp; [|lia]. apply bind_ok in Hs as (p' & Hp' & Hs).
    apply pyset_ok in Hs as (Ls & ->); [|lia]. rewrite Nat2Z.id in *.
    rewrite upd_length, app_length. cbn [length]. split; auto. intros k pk Hk. destruct (HI k pk Hk) as (q & Q1 & Q2 & Q3).
    destruct (Nat.eq_dec k (length done)) as [->|N'].
    + exists p'. rewrite nth_error_upd_eq by auto. split; auto. split; [lia|]. intros _.
      specialize (Q2 (le_n _)). subst q. assert (pk = p) as -> by congruence.
      apply (decide_ok N) in Hp'; auto. eapply HC; eauto.
    + exists q. rewrite nth_error_upd_neq by auto. split; auto. split; [intros; apply Q2; lia|]. intros; apply Q3; lia.
Qed.

Theorem trackcorr_step_links buf0 b1 b2 b3 c1 c2 c3 cnt :
  frame_ok b1 -> frame_ok b2 -> frame_ok b3 ->
  (forall p, In p (fr_path b1) -> p_next p = NEXT_NONE) ->
  (forall p, In p (fr_path b2) -> fresh_particle p) ->
  trackcorr_step buf0 b1 b2 b3 = Ok (c1, c2, c3, cnt) ->
  mutual (fr_path c1) (fr_path c2) /\
  length (fr_path c1) = length (fr_path b1) /\
  (forall h p, nth_error (fr_path b1) h = Some p -> exists q, nth_error (fr_path c1) h = Some q /\ p_x q = p_x p /\ p_prev q = p_prev p) /\
  (forall p, In p (fr_path c2) -> p_next p = NEXT_NONE) /\
  (exists l, map p_x (fr_path c2) = map p_x (fr_path b2) ++ l) /\
  only_added b3 c3 /\ frame_ok c1 /\ frame_ok c2 /\ frame_ok c3.
Proof.
  intros F1 F2 F3 N1 N2 H. unfold Model_track.trackcorr_step in H.
  apply bind_ok in H as ([[d1 d2] d3] & Ht & H).
  apply track_all_ok in Ht as (A1 & A2 & A3 & A4 & A5 & A6 & A7 & A8); auto.
  apply bind_ok in H as (cur & Hd & H). apply bind_ok in H as ([[cur' nxt'] cnt'] & Hl & H). injection H as <- <- <- <-.
  pose proof F1 as (FN & FT). rewrite A6, FN, <- A5 in Hd, Hl.
  assert (CO : forall h p, nth_error (fr_path d1) h = Some p -> cands_ok (Z.of_nat (length (fr_path d2))) p /\ p_next p = NEXT_NONE).
  { intros h p Hp. assert (h < length (fr_path d1))%nat by (apply nth_error_Some; congruence).
    destruct (nth_error (fr_path b1) h) as [p0|] eqn:E0; [|apply nth_error_None in E0; lia].
    destruct (A8 h p0 E0) as (q & Q1 & Q2 & Q3). assert (q = p) as -> by congruence. split; [apply Q3; lia|].
    destruct Q2 as (_ & _ & -> & _). apply N1. eapply nth_error_In; eauto. }
  apply (decide_all_ok (Z.of_nat (length (fr_path d2)))) in Hd as (D1 & D2); [|intros h p Hp; now apply (CO h p)].
  assert (FR2 : forall p, In p (fr_path d2) -> fresh_particle p).
  { intros p Hp. destruct A3 as (l & El & Fl). rewrite El in Hp. apply in_app_or in Hp as [Hp|Hp]; auto.
    rewrite Forall_forall in Fl. auto. }
  assert (RW : ready_weak cur (fr_path d2)).
  { split.
    - intros h q Hq. assert (h < length cur)%nat by (apply nth_error_Some; congruence).
      destruct (nth_error (fr_path d1) h) as [p|] eqn:E; [|apply nth_error_None in E; lia].
      destruct (D2 h p E) as (q' & Q1 & Q2 & Q3 & Q4 & Q5). assert (q' = q) as -> by congruence. rewrite Q2.
      destruct (0 <? p_inlist p); auto. subst q. now apply (CO h p).
    - intros k r Hr. apply FR2. eapply nth_error_In; eauto. }
  destruct (link_mutual cur (fr_path d2) RW) as (cur2 & nxt2 & cnt2 & E & L1 & L2 & M & S1 & S2).
  rewrite D1 in E. rewrite E in Hl. injection Hl as <- <- <-. cbn [fr_path set_path fr_num].
  split; auto. split; [lia|]. split; [|split; [|split; [|split; [|split; [|split]]]]]; auto.
  - intros h p Hp. destruct (A8 h p Hp) as (q & Q1 & (Q2 & Q3 & Q4) & _).
    destruct (D2 h q Q1) as (r & R1 & R2 & R3 & R4 & _). destruct (S1 h r R1) as (s & E1 & (v & ->)).
    exists (set_next r v). cbn [set_next p_x p_prev]. split; auto. split; congruence.
  - intros p Hp. apply In_nth_error in Hp as (k & Hk). assert (k < length nxt2)%nat by (apply nth_error_Some; congruence).
    destruct (nth_error (fr_path d2) k) as [r|] eqn:Er; [|apply nth_error_None in Er; lia].
    destruct (S2 k r Er) as (s & E1 & (v & ->)). assert (p = set_prev r v) as -> by congruence. cbn [set_prev p_next].
    apply FR2. eapply nth_error_In; eauto.
  - destruct A3 as (l & El & Fl). exists (map p_x l). rewrite <- map_app, <- El.
    apply nth_error_ext. intros k. rewrite !nth_error_map. destruct (nth_error (fr_path d2) k) as [r|] eqn:Er.
    + destruct (S2 k r Er) as (s & -> & (v & ->)). reflexivity.
    + assert (nth_error nxt2 k = None) as -> by (apply nth_error_None; apply nth_error_None in Er; lia). reflexivity.
  - split; cbn [set_path fr_num fr_path fr_targ]; [lia|]. injection A7 as _ -> _. auto.
  - destruct A1 as (B1 & B2). split; cbn [set_path fr_num fr_path fr_targ]; auto. lia.
Qed.
End Step.
