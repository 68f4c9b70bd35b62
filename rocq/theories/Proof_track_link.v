(** Link decisions (track.py:1029-1070): mutual, injective, lowest decision value wins. *)
From Coq Require Import Permutation Sorted.
From Verif Require Import Base Lib F64 Model_corr Model_cand Spec_cand Model_track Spec_track.
Local Open Scope Z_scope.

Section Link.
Variables cur0 nxt0 : list pinfo.
Hypothesis RDY : ready cur0 nxt0.
Let n := length cur0.

(** best among the first [m] particles *)
Definition best_upto (m h k : nat) : Prop :=
  (h < m)%nat /\ exists p, nth_error cur0 h = Some p /\ wants cur0 h k /\
  forall h' p', (h' < m)%nat -> wants cur0 h' k -> nth_error cur0 h' = Some p' -> h' <> h ->
    if (h' <? h)%nat then flt (p_final p) (p_final p') = true else flt (p_final p') (p_final p) = false.

(** how many of the first [m] were the best when their turn came *)
Definition was_best (h : nat) : bool :=
  match nth_error cur0 h with
  | Some p => (0 <? p_inlist p) &&
      forallb (fun h' => match nth_error cur0 h' with
                         | Some p' => negb ((0 <? p_inlist p') && (p_next p' =? p_next p)) || flt (p_final p) (p_final p')
                         | None => true end) (seq 0 h)
  | None => false
  end.

Definition Inv (m : nat) (st : list pinfo * list pinfo * Z) : Prop :=
  let '(cur, nxt, cnt) := st in
  length cur = n /\ length nxt = length nxt0 /\
  (forall h p, nth_error cur0 h = Some p -> exists q, nth_error cur h = Some q /\ same_but_next p q /\
     ((m <= h)%nat -> q = p) /\
     ((h < m)%nat -> (exists k, best_upto m h k /\ p_next q = Z.of_nat k) \/
                     ((forall k, ~ best_upto m h k) /\ p_next q = NEXT_NONE))) /\
  (forall k r, nth_error nxt0 k = Some r -> exists s, nth_error nxt k = Some s /\ same_but_prev r s /\
     ((exists h, best_upto m h k /\ p_prev s = Z.of_nat h) \/
      ((forall h, (h < m)%nat -> ~ wants cur0 h k) /\ p_prev s = PREV_NONE))) /\
  cnt = Z.of_nat (length (filter was_best (seq 0 m))).

Lemma wants_fun h k k' : wants cur0 h k -> wants cur0 h k' -> k = k'.
Proof. intros (p & A & B & C) (p' & A' & B' & C'). assert (p = p') as -> by congruence. lia. Qed.
Lemma best_unique m h h' k : best_upto m h k -> best_upto m h' k -> h = h'.
Proof.
  intros (L & p & P & W & H) (L' & p' & P' & W' & H').
  destruct (Nat.eq_dec h h') as [|N]; auto. exfalso.
  specialize (H h' p' L' W' P' ltac:(auto)). specialize (H' h p L W P ltac:(auto)).
  destruct (Nat.ltb_spec h' h), (Nat.ltb_spec h h'); try lia; congruence.
Qed.

Lemma set_next_same p q : same_but_next p q -> forall v, set_next q v = set_next p v.
Proof. intros (w & ->) v. reflexivity. Qed.
Lemma final_same p q : same_but_next p q -> p_final q = p_final p /\ p_inlist q = p_inlist p.
Proof. intros (w & ->). auto. Qed.

Lemma step_ok m st : (m < n)%nat -> Inv m st -> exists st', link_one st (Z.of_nat m) = Ok st' /\ Inv (S m) st'.
Proof.
  destruct st as [[cur nxt] cnt]. intros Hm (I1 & I2 & I3 & I4 & I5). destruct RDY as (R1 & R2).
  destruct (nth_error cur0 m) as [p|] eqn:Ep; [|apply nth_error_None in Ep; unfold n in Hm; lia].
  destruct (I3 m p Ep) as (q & Q1 & Q2 & Q3 & _). specialize (Q3 (le_n m)). subst q.
  unfold link_one. rewrite (pyget_nonneg cur (Z.of_nat m) p) by (try lia; now rewrite Nat2Z.id). cbn [bind].
  pose proof (R1 m p Ep) as Rp. rewrite Z.gtb_ltb.
  assert (CW : forall k, ~ wants cur0 m k -> forall h, best_upto (S m) h k <-> best_upto m h k).
  { intros k Nw h. split; intros (L & p' & P & W & H).
    - destruct (Nat.eq_dec h m) as [->|]; [tauto|]. split; [lia|]. exists p'. split; auto. split; auto. intros; apply H; auto; lia.
    - split; [lia|]. exists p'. split; auto. split; auto. intros h' p'' Hh W' P' N'.
      destruct (Nat.eq_dec h' m) as [->|]; [tauto|]. apply H; auto; lia. }
  destruct (Z.ltb_spec 0 (p_inlist p)) as [Hin|Hin].
  - (* has candidates *)
    destruct Rp as (Rk & Rn). set (k := Z.to_nat (p_next p)). assert (Ek : p_next p = Z.of_nat k) by (unfold k; lia).
    assert (Wm : wants cur0 m k) by (exists p; auto).
    destruct (nth_error nxt0 k) as [r0|] eqn:Er0; [|apply nth_error_None in Er0; unfold k in Er0; lia].
    destruct (I4 k r0 Er0) as (r & Er & Sr & Pr).
    rewrite Ek. rewrite (pyget_nonneg nxt (Z.of_nat k) r) by (try lia; now rewrite Nat2Z.id). cbn [bind].
    assert (OTH : forall k', k' <> k -> forall h, best_upto (S m) h k' <-> best_upto m h k').
    { intros k' Nk. apply CW. intros W. apply Nk. eapply wants_fun; eauto. }
    assert (NXT' : forall v, p_prev (set_prev r v) = v) by reflexivity.
    assert (SP : forall v, same_but_prev r0 (set_prev r v)).
    { intros v. destruct Sr as (x & ->). exists v. reflexivity. }
    assert (Lnx : (k < length nxt)%nat) by (apply nth_error_Some; congruence).
    assert (NW : forall h', (h' < m)%nat -> forall p', nth_error cur0 h' = Some p' ->
       (0 <? p_inlist p') && (p_next p' =? p_next p) = true -> wants cur0 h' k).
    { intros h' _ p' P' E. apply andb_true_iff in E as (E1 & E2). apply Z.ltb_lt in E1. apply Z.eqb_eq in E2.
      exists p'. split; auto. split; auto. congruence. }
    assert (WN : forall h' p', nth_error cur0 h' = Some p' -> wants cur0 h' k -> (0 <? p_inlist p') && (p_next p' =? p_next p) = true).
    { intros h' p' P' (p'' & P'' & A & B). assert (p'' = p') as -> by congruence.
      apply andb_true_iff. split; [now apply Z.ltb_lt|apply Z.eqb_eq; congruence]. }
    (* m becomes the best *)
    assert (NEWBEST : (forall h' p', (h' < m)%nat -> wants cur0 h' k -> nth_error cur0 h' = Some p' -> flt (p_final p) (p_final p') = true) ->
       best_upto (S m) m k /\ was_best m = true).
    { intros HA. split.
      - split; [lia|]. exists p. split; auto. split; auto. intros h' p' Hh W P N. destruct (Nat.ltb_spec h' m); [eauto|lia].
      - unfold was_best. rewrite Ep. apply andb_true_iff. split; [now apply Z.ltb_lt|]. apply forallb_forall.
        intros h' Hh. apply in_seq in Hh. destruct (nth_error cur0 h') as [p'|] eqn:P'; auto.
        destruct ((0 <? p_inlist p') && (p_next p' =? p_next p)) eqn:E; auto. cbn. apply (HA h' p'); auto; [lia|].
        apply (NW h' ltac:(lia) p'); auto. }
    assert (CNT : forall b, was_best m = b ->
       Z.of_nat (length (filter was_best (seq 0 (S m)))) = cnt + if b then 1 else 0).
    { intros b Eb. rewrite seq_S, filter_app, app_length. cbn [Nat.add filter]. rewrite Eb, I5. destruct b; simpl; lia. }
    (* m takes k; [other] = previous best, if any *)
    assert (TAKE : forall cur1, length cur1 = n ->
       best_upto (S m) m k -> was_best m = true ->
       nth_error cur1 m = Some p ->
       (forall h ph, nth_error cur0 h = Some ph -> h <> m -> exists q, nth_error cur1 h = Some q /\ same_but_next ph q /\
          ((S m <= h)%nat -> q = ph) /\
          ((h < m)%nat -> (exists k', best_upto (S m) h k' /\ p_next q = Z.of_nat k') \/
                          ((forall k', ~ best_upto (S m) h k') /\ p_next q = NEXT_NONE))) ->
       Inv (S m) (cur1, upd nxt k (set_prev r (Z.of_nat m)), cnt + 1)).
    { intros cur1 L1 HB HW HM HO. split; auto. split; [now rewrite upd_length|]. split; [|split].
      - intros h ph Hh. destruct (Nat.eq_dec h m) as [->|N].
        + assert (ph = p) as -> by congruence. exists p. split; auto. split; [exists (p_next p); destruct p; reflexivity|].
          split; [lia|]. intros _. left. exists k. auto.
        + destruct (HO h ph Hh N) as (q & A & B & C & D). exists q. split; auto. split; auto. split; auto. intros L. apply D. lia.
      - intros k' rr Hr. destruct (Nat.eq_dec k' k) as [->|N].
        + assert (rr = r0) as -> by congruence. exists (set_prev r (Z.of_nat m)).
          split; [now apply nth_error_upd_eq|]. split; auto. left. exists m. split; auto.
        + destruct (I4 k' rr Hr) as (s & A & B & C). exists s. split; [now rewrite nth_error_upd_neq|]. split; auto.
          destruct C as [(h & C1 & C2)|(C1 & C2)]; [left; exists h; split; auto; now apply OTH|right; split; auto].
          intros h Hh W. destruct (Nat.eq_dec h m) as [->|]; [apply N; eapply wants_fun; eauto|]. apply (C1 h); auto. lia.
      - rewrite (CNT true); auto. }
    destruct Pr as [(w & Bw & Prw)|(Nob & Prn)].
    + (* k already has a best w *)
      pose proof Bw as (Lw & pw & Pw & Ww & Hw).
      destruct (I3 w pw Pw) as (qw & Qw1 & Qw2 & _ & Qw4). destruct (final_same _ _ Qw2) as (Fw & Iw).
      pose proof (R1 w pw Pw) as Rw. replace (0 <? p_inlist pw) with true in Rw.
      2:{ symmetry. apply Z.ltb_lt. destruct Ww as (x & X1 & X2 & _). congruence. }
      destruct Rw as (_ & Nw).
      rewrite Prw. destruct (Z.eqb_spec (Z.of_nat w) PREV_NONE) as [E|_]; [unfold PREV_NONE in E; lia|].
      rewrite (pyget_nonneg cur (Z.of_nat w) qw) by (try lia; now rewrite Nat2Z.id). cbn [bind].
      unfold fgt. rewrite Fw. destruct (flt (p_final p) (p_final pw)) eqn:Eflt.
      * (* stolen *)
        assert (Lwc : (w < length cur)%nat) by (apply nth_error_Some; congruence).
        rewrite pyset_in_range by lia. cbn [bind]. rewrite pyset_in_range by lia. cbn [bind].
        rewrite !Nat2Z.id.
        rewrite (pyget_nonneg _ (Z.of_nat m) p).
        2:lia. 2:{ rewrite Nat2Z.id, nth_error_upd_neq by lia. auto. }
        cbn [bind]. rewrite Ek. destruct (Z.eqb_spec (Z.of_nat k) NEXT_NONE) as [E|_]; [unfold NEXT_NONE in E; lia|].
        eexists. split; [reflexivity|].
        destruct NEWBEST as (NB & WB).
        { intros h' p' Hh W P'. destruct (Nat.eq_dec h' w) as [->|N]; [congruence|].
          specialize (Hw h' p' Hh W P' N). destruct (Nat.ltb_spec h' w).
          - eapply flt_trans; eauto.
          - pose proof (R1 h' p' P') as Rh. replace (0 <? p_inlist p') with true in Rh.
            2:{ symmetry. apply Z.ltb_lt. destruct W as (x & X1 & X2 & _). congruence. }
            destruct Rh as (_ & Nh). apply flt_fle_trans with (p_final pw); auto.
            now apply flt_false_fle. }
        apply TAKE; auto; [now rewrite upd_length|rewrite nth_error_upd_neq by lia; auto|].
        intros h ph Hh N. destruct (I3 h ph Hh) as (q & A & B & C & D).
        destruct (Nat.eq_dec h w) as [->|Nhw].
        -- assert (ph = pw) as -> by congruence. assert (q = qw) as -> by congruence.
           exists (set_next qw NEXT_NONE). split; [now apply nth_error_upd_eq|].
           split; [destruct B as (x & ->); exists NEXT_NONE; reflexivity|]. split; [lia|].
           intros _. right. split; auto. intros k' HB'.
           assert (k' = k) as -> by (destruct HB' as (_ & x & _ & W' & _); eapply wants_fun; eauto).
           apply (best_unique _ _ _ _ HB') in NB. lia.
        -- exists q. split; [now rewrite nth_error_upd_neq|]. split; auto. split; [intros; apply C; lia|].
           intros Lh. destruct (D Lh) as [(k' & D1 & D2)|(D1 & D2)].
           ++ left. exists k'. split; auto. apply OTH; auto. intros ->. apply Nhw. eapply best_unique; eauto.
           ++ right. split; auto. intros k' HB'. destruct (Nat.eq_dec k' k) as [->|Nk].
              ** apply (best_unique _ _ _ _ HB') in NB. lia.
              ** apply (D1 k'). now apply OTH.
      * (* kept *)
        assert (Lmc : (m < length cur)%nat) by (apply nth_error_Some; congruence).
        rewrite pyset_in_range by lia. cbn [bind]. rewrite Nat2Z.id.
        rewrite (pyget_nonneg _ (Z.of_nat m) (set_next p NEXT_NONE)).
        2:lia. 2:{ rewrite Nat2Z.id, nth_error_upd_eq by lia. auto. }
        cbn [bind]. change (p_next (set_next p NEXT_NONE) =? NEXT_NONE) with true. cbn iota.
        eexists. split; [reflexivity|].
        assert (BS : best_upto (S m) w k).
        { split; [lia|]. exists pw. split; auto. split; auto. intros h' p' Hh W P' N.
          destruct (Nat.eq_dec h' m) as [->|]; [|apply Hw; auto; lia].
          assert (p' = p) as -> by congruence. destruct (Nat.ltb_spec m w); [lia|auto]. }
        assert (WB : was_best m = false).
        { unfold was_best. rewrite Ep. apply andb_false_iff. right. apply not_true_iff_false. intros HF.
          rewrite forallb_forall in HF. specialize (HF w). rewrite Pw in HF.
          rewrite (WN w pw Pw Ww) in HF. cbn in HF. rewrite HF in Eflt; [discriminate|]. apply in_seq. lia. }
        split; [now rewrite upd_length|]. split; auto. split; [|split].
        -- intros h ph Hh. destruct (Nat.eq_dec h m) as [->|N].
           ++ assert (ph = p) as -> by congruence. exists (set_next p NEXT_NONE). split; [now apply nth_error_upd_eq|].
              split; [exists NEXT_NONE; auto|]. split; [lia|]. intros _. right. split; auto.
              intros k' HB'. assert (k' = k) as -> by (destruct HB' as (_ & x & _ & W' & _); eapply wants_fun; eauto).
              apply (best_unique _ _ _ _ HB') in BS. lia.
           ++ destruct (I3 h ph Hh) as (q & A & B & C & D). exists q. split; [now rewrite nth_error_upd_neq|]. split; auto.
              split; [intros; apply C; lia|]. intros Lh. destruct (D ltac:(lia)) as [(k' & D1 & D2)|(D1 & D2)].
              ** left. exists k'. split; auto. destruct (Nat.eq_dec k' k) as [->|Nk]; [|now apply OTH].
                 now rewrite (best_unique _ _ _ _ D1 Bw).
              ** right. split; auto. intros k' HB'. destruct (Nat.eq_dec k' k) as [->|Nk]; [|apply (D1 k'); now apply OTH].
                 rewrite (best_unique _ _ _ _ HB' BS) in D1. apply (D1 k Bw).
        -- intros k' rr Hr. destruct (I4 k' rr Hr) as (s & A & B & C). exists s. split; auto. split; auto.
           destruct (Nat.eq_dec k' k) as [->|N].
           ++ assert (s = r) as -> by congruence. left. exists w. auto.
           ++ destruct C as [(h & C1 & C2)|(C1 & C2)]; [left; exists h; split; auto; now apply OTH|right; split; auto].
              intros h Hh W. destruct (Nat.eq_dec h m) as [->|]; [apply N; eapply wants_fun; eauto|]. apply (C1 h); auto. lia.
        -- rewrite (CNT false); auto. lia.
    + (* k is free *)
      rewrite Prn. change (PREV_NONE =? PREV_NONE) with true. cbn iota.
      rewrite pyset_in_range by lia. cbn [bind].
      rewrite (pyget_nonneg cur (Z.of_nat m) p) by (try lia; now rewrite Nat2Z.id). cbn [bind]. rewrite Ek.
      destruct (Z.eqb_spec (Z.of_nat k) NEXT_NONE) as [E|_]; [unfold NEXT_NONE in E; lia|].
      eexists. split; [reflexivity|]. rewrite Nat2Z.id.
      destruct NEWBEST as (NB & WB).
      { intros h' p' Hh W P'. exfalso. apply (Nob h'); auto. }
      apply TAKE; auto. intros h ph Hh N. destruct (I3 h ph Hh) as (q & A & B & C & D).
      exists q. split; auto. split; auto. split; [intros; apply C; lia|]. intros Lh.
      destruct (D Lh) as [(k' & D1 & D2)|(D1 & D2)].
      * left. exists k'. split; auto. apply OTH; auto. intros ->. destruct D1 as (Lh' & x & _ & W & _). apply (Nob h); auto.
      * right. split; auto. intros k' HB'. destruct (Nat.eq_dec k' k) as [->|Nk].
        -- apply (best_unique _ _ _ _ HB') in NB. lia.
        -- apply (D1 k'). now apply OTH.
  - (* no candidates *)
    cbn [bind]. rewrite (pyget_nonneg cur (Z.of_nat m) p) by (try lia; now rewrite Nat2Z.id). cbn [bind].
    rewrite Rp. change (NEXT_NONE =? NEXT_NONE) with true. cbn iota.
    assert (NW : forall k, ~ wants cur0 m k).
    { intros k (p' & P' & A & _). assert (p' = p) as -> by congruence. lia. }
    eexists. split; [reflexivity|]. split; auto. split; auto. split; [|split].
    + intros h ph Hh. destruct (I3 h ph Hh) as (q & A & B & C & D). exists q. split; auto. split; auto.
      split; [intros; apply C; lia|]. intros Lh. destruct (Nat.eq_dec h m) as [->|N].
      * right. assert (ph = p) as -> by congruence. rewrite (C (le_n m)). split; auto.
        intros k (_ & x & _ & W & _). eapply NW; eauto.
      * destruct (D ltac:(lia)) as [(k' & D1 & D2)|(D1 & D2)].
        -- left. exists k'. split; auto. now apply CW.
        -- right. split; auto. intros k HB. apply (D1 k). now apply CW.
    + intros k rr Hr. destruct (I4 k rr Hr) as (s & A & B & C). exists s. split; auto. split; auto.
      destruct C as [(h & C1 & C2)|(C1 & C2)]; [left; exists h; split; auto; now apply CW|right; split; auto].
      intros h Hh. destruct (Nat.eq_dec h m) as [->|]; [auto|]. apply C1. lia.
    + rewrite seq_S, filter_app, app_length. cbn [Nat.add filter]. replace (was_best m) with false; [simpl; lia|].
      symmetry. unfold was_best. rewrite Ep. apply andb_false_iff. left. apply Z.ltb_ge. auto.
Qed.

Theorem link_all_inv : exists st, link_all (Z.of_nat n) cur0 nxt0 = Ok st /\ Inv n st.
Proof.
  unfold link_all.
  destruct (loop_total (fun i st => Inv (Z.to_nat i) st) link_one 0 (Z.of_nat n) (cur0, nxt0, 0)) as (st & E & H).
  - lia.
  - change (Z.to_nat 0) with O. split; auto. split; auto. destruct RDY as (R1 & R2). split; [|split; [|reflexivity]].
    + intros h p Hp. exists p. split; auto. split; [exists (p_next p); destruct p; reflexivity|]. split; auto. lia.
    + intros k r Hr. exists r. split; auto. split; [exists (p_prev r); destruct r; reflexivity|].
      right. split; [lia|]. eauto.
  - intros i st Hi HI. destruct (step_ok (Z.to_nat i) st ltac:(lia) HI) as (st' & E & H').
    rewrite Z2Nat.id in E by lia. exists st'. split; auto. now replace (Z.to_nat (i + 1)) with (S (Z.to_nat i)) by lia.
  - exists st. split; auto. now rewrite Nat2Z.id in H.
Qed.
End Link.

Theorem link_exact cur nxt : ready cur nxt ->
  exists cur' nxt' cnt, link_all (Z.of_nat (length cur)) cur nxt = Ok (cur', nxt', cnt) /\
    length cur' = length cur /\ length nxt' = length nxt /\
    mutual cur' nxt' /\
    (forall h k, next_of cur' h = Z.of_nat k <-> winner cur h k) /\
    (forall h, (forall k, ~ winner cur h k) -> next_of cur' h = NEXT_NONE) /\
    (forall k, (forall h, ~ wants cur h k) -> prev_of nxt' k = PREV_NONE) /\
    (forall h k, wants cur h k -> (k < length nxt)%nat -> exists w, winner cur w k) /\
    (forall h p, nth_error cur h = Some p -> exists q, nth_error cur' h = Some q /\ same_but_next p q) /\
    (forall k r, nth_error nxt k = Some r -> exists s, nth_error nxt' k = Some s /\ same_but_prev r s) /\
    (exists l, NoDup l /\ (forall h, In h l <-> exists k, leads cur h k) /\ cnt = Z.of_nat (length l)).
Proof.
  intros R. destruct (link_all_inv cur nxt R) as ([[cur' nxt'] cnt] & E & (I1 & I2 & I3 & I4 & I5)).
  exists cur', nxt', cnt. split; auto. split; auto. split; auto.
  assert (BW : forall h k, best_upto cur (length cur) h k <-> winner cur h k).
  { intros h k. split.
    - intros (L & p & P & W & H). exists p. split; auto. split; auto. intros h' p' W' P' N. apply H; auto.
      apply nth_error_Some. congruence.
    - intros (p & P & W & H). split; [apply nth_error_Some; congruence|]. exists p. split; auto. split; auto. intros h' p' _ W' P' N'. exact (H h' p' W' P' N'). }
  assert (N1 : forall h k, next_of cur' h = Z.of_nat k <-> winner cur h k).
  { intros h k. rewrite <- BW. unfold next_of. split.
    - destruct (nth_error cur' h) as [q|] eqn:Eq; [|unfold NEXT_NONE; lia].
      assert (h < length cur')%nat by (apply nth_error_Some; congruence).
      destruct (nth_error cur h) as [p|] eqn:Ep; [|apply nth_error_None in Ep; lia].
      destruct (I3 h p Ep) as (q' & A & B & C & D). assert (q' = q) as -> by congruence. intros Eqk.
      destruct (D ltac:(lia)) as [(k' & D1 & D2)|(D1 & D2)]; [|unfold NEXT_NONE in *; lia].
      assert (k' = k) as -> by lia. auto.
    - intros HB. pose proof HB as (L & p & P & W & H). destruct (I3 h p P) as (q & A & B & C & D). rewrite A.
      destruct (D L) as [(k' & D1 & D2)|(D1 & D2)]; [|exfalso; eapply D1; eauto].
      assert (k' = k) as -> by (destruct D1 as (_ & _ & _ & W' & _); eapply wants_fun; eauto). auto. }
  assert (N2 : forall h k, prev_of nxt' k = Z.of_nat h <-> winner cur h k).
  { intros h k. rewrite <- BW. unfold prev_of. split.
    - destruct (nth_error nxt' k) as [s|] eqn:Es; [|unfold PREV_NONE; lia].
      assert (k < length nxt')%nat by (apply nth_error_Some; congruence).
      destruct (nth_error nxt k) as [r|] eqn:Er; [|apply nth_error_None in Er; lia].
      destruct (I4 k r Er) as (s' & A & B & C). assert (s' = s) as -> by congruence. intros Esk.
      destruct C as [(h' & C1 & C2)|(C1 & C2)]; [|unfold PREV_NONE in *; lia]. assert (h' = h) as -> by lia. auto.
    - intros HB. pose proof HB as (L & p & P & W & H). destruct R as (R1 & R2). pose proof (R1 h p P) as Rp.
      destruct W as (p' & P' & Wi & Wk). assert (p' = p) as -> by congruence.
      replace (0 <? p_inlist p) with true in Rp by (symmetry; now apply Z.ltb_lt).
      destruct (nth_error nxt k) as [r|] eqn:Er; [|apply nth_error_None in Er; lia].
      destruct (I4 k r Er) as (s & A & B & C). rewrite A.
      destruct C as [(h' & C1 & C2)|(C1 & C2)].
      + rewrite (best_unique _ _ _ _ _ HB C1). auto.
      + exfalso. apply (C1 h L). exists p. auto. }
  split; [intros h k; rewrite N1, N2; tauto|]. split; auto. split; [|split; [|split; [|split; [|split]]]].
  - intros h HN. unfold next_of. destruct (nth_error cur' h) as [q|] eqn:Eq; auto.
    assert (h < length cur')%nat by (apply nth_error_Some; congruence).
    destruct (nth_error cur h) as [p|] eqn:Ep; [|apply nth_error_None in Ep; lia].
    destruct (I3 h p Ep) as (q' & A & B & C & D). assert (q' = q) as -> by congruence.
    destruct (D ltac:(lia)) as [(k' & D1 & D2)|(D1 & D2)]; auto. apply BW in D1. exfalso. eapply HN; eauto.
  - intros k HN. unfold prev_of. destruct (nth_error nxt' k) as [s|] eqn:Es; auto.
    assert (k < length nxt')%nat by (apply nth_error_Some; congruence).
    destruct (nth_error nxt k) as [r|] eqn:Er; [|apply nth_error_None in Er; lia].
    destruct (I4 k r Er) as (s' & A & B & C). assert (s' = s) as -> by congruence.
    destruct C as [(h' & C1 & C2)|(C1 & C2)]; auto. exfalso. destruct C1 as (_ & _ & _ & W & _). eapply HN; eauto.
  - intros h k W Hk. destruct (nth_error nxt k) as [r|] eqn:Er; [|apply nth_error_None in Er; lia].
    destruct (I4 k r Er) as (s & A & B & C). destruct C as [(h' & C1 & C2)|(C1 & C2)].
    + exists h'. now apply BW.
    + exfalso. apply (C1 h); auto. destruct W as (p & P & _). apply nth_error_Some. congruence.
  - intros h p Hp. destruct (I3 h p Hp) as (q & A & B & _). eauto.
  - intros k r Hr. destruct (I4 k r Hr) as (s & A & B & _). eauto.
  - exists (filter (was_best cur) (seq 0 (length cur))). split; [apply NoDup_filter, seq_NoDup|]. split; auto.
    intros h. rewrite filter_In, in_seq. unfold was_best. split.
    + intros (L & H). destruct (nth_error cur h) as [p|] eqn:Ep; [|discriminate].
      apply andb_true_iff in H as (H1 & H2). destruct R as (R1 & _). pose proof (R1 h p Ep) as Rp. rewrite H1 in Rp.
      apply Z.ltb_lt in H1. exists (Z.to_nat (p_next p)), p. split; auto.
      assert (W : wants cur h (Z.to_nat (p_next p))) by (exists p; split; auto; split; auto; lia).
      split; auto. intros h' p' L' (p'' & P'' & W1 & W2) P'. assert (p'' = p') as -> by congruence.
      rewrite forallb_forall in H2. specialize (H2 h' ltac:(apply in_seq; lia)). rewrite P' in H2.
      replace ((0 <? p_inlist p') && (p_next p' =? p_next p)) with true in H2; [exact H2|].
      symmetry. apply andb_true_iff. split; [now apply Z.ltb_lt|]. apply Z.eqb_eq. lia.
    + intros (k & p & P & W & H). split; [split; [lia|]; apply nth_error_Some; congruence|]. rewrite P.
      destruct W as (p' & P' & Wi & Wk). assert (p' = p) as -> by congruence.
      apply andb_true_iff. split; [now apply Z.ltb_lt|]. apply forallb_forall. intros h' Hh. apply in_seq in Hh.
      destruct (nth_error cur h') as [p'|] eqn:Ph'; auto.
      destruct ((0 <? p_inlist p') && (p_next p' =? p_next p)) eqn:Ec; auto. cbn.
      apply andb_true_iff in Ec as (E1 & E2). apply Z.ltb_lt in E1. apply Z.eqb_eq in E2.
      apply (H h' p'); auto; [lia|]. exists p'. split; auto. split; auto. lia.
Qed.

(** every linked particle led when its turn came, so the count never falls short *)
Lemma winner_leads cur h k : winner cur h k -> leads cur h k.
Proof.
  intros (p & P & W & H). exists p. split; auto. split; auto. intros h' p' L W' P'.
  specialize (H h' p' W' P' ltac:(lia)). destruct (Nat.ltb_spec h' h); [auto|lia].
Qed.

(** ---- deciding: the first pair after sorting ---- *)
Section Decide.
Variable psort : list (f64 * Z) -> list (f64 * Z).
Hypothesis psort_perm : forall l, Permutation l (psort l).

Lemma sort_links_ok n a b : 0 < n <= Z.of_nat (length a) -> n <= Z.of_nat (length b) ->
  exists a' b', sort_links psort n a b = Ok (a', b') /\ length a' = length a /\ length b' = length b /\
    combine (firstn (Z.to_nat n) a') (firstn (Z.to_nat n) b') = psort (combine (firstn (Z.to_nat n) a) (firstn (Z.to_nat n) b)) /\
    skipn (Z.to_nat n) a' = skipn (Z.to_nat n) a /\ skipn (Z.to_nat n) b' = skipn (Z.to_nat n) b.
Proof.
  intros Ha Hb. unfold sort_links. set (k := Z.to_nat n). set (l := combine (firstn k a) (firstn k b)).
  assert (Ll : length l = k) by (unfold l; rewrite combine_length, !firstn_length; lia).
  pose proof (Permutation_length (psort_perm l)) as LP.
  destruct (psort l) as [|x sp] eqn:Es; [simpl in LP; lia|]. rewrite <- Es in *. clear Es.
  eexists _, _. split; [reflexivity|].
  assert (L1 : length (map fst (psort l)) = k) by (rewrite map_length; lia).
  assert (L2 : length (map snd (psort l)) = k) by (rewrite map_length; lia).
  rewrite !app_length, !skipn_length, L1, L2. split; [lia|]. split; [lia|].
  rewrite !firstn_app, L1, L2, Nat.sub_diag, !firstn_O, !app_nil_r.
  rewrite (firstn_all2 (map fst _)), (firstn_all2 (map snd _)) by lia.
  rewrite !skipn_app, L1, L2, Nat.sub_diag, !skipn_O.
  rewrite (skipn_all2 (map fst _)), (skipn_all2 (map snd _)) by lia.
  split; [|auto]. clear. induction (psort l) as [|[u v] t IH]; cbn; auto. now rewrite IH.
Qed.
End Decide.
