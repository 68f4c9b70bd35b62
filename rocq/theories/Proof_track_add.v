(** add_particle: what it does to a frame. *)
From Verif Require Import Base Lib F64 Model_corr Model_cand Spec_cand Model_track Spec_track Proof_track_step.
Local Open Scope Z_scope.


Theorem add_particle_exact nc frm pos inds frm' : (0 <= nc) ->
  add_particle nc frm pos inds = Ok frm' ->
  fr_path frm' = fr_path frm ++ [new_pinfo pos] /\ fr_num frm' = fr_num frm + 1 /\ fr_numt frm' = fr_numt frm /\
  length (fr_corr frm') = S (length (fr_corr frm)) /\ nc <= Z.of_nat (length (fr_corr frm')) /\
  (forall c, Z.of_nat c < nc -> exists ix r, nth_error inds c = Some ix /\ nth_error (fr_corr frm') c = Some r /\ co_p r = new_p ix) /\
  (forall i r, nc <= Z.of_nat i -> nth_error (fr_corr frm) i = Some r -> exists r', nth_error (fr_corr frm') i = Some r' /\ co_p r' = co_p r) /\
  (nc <= Z.of_nat (length (fr_corr frm)) -> forall r0, nth_error (fr_corr frm) 0 = Some r0 ->
     exists r', nth_error (fr_corr frm') (length (fr_corr frm)) = Some r' /\ co_p r' = co_p r0) /\
  ((exists c ix, Z.of_nat c < nc /\ nth_error inds c = Some ix /\ ix <> PT_UNUSED) ->
     forall r, In r (fr_corr frm') -> co_nr r = fr_num frm).
Proof.
  intros Hnc H. unfold add_particle in H. destruct (_ >? _); [discriminate|].
  apply bind_ok in H as ([cor targ] & H & H'). injection H' as <-. cbn [fr_path fst snd fr_num fr_numt fr_corr].
  split; auto. split; auto. split; auto.
  set (c0 := np_resize1 (fr_corr frm)) in *.
  assert (L0 : length c0 = S (length (fr_corr frm))).
  { unfold c0, np_resize1. destruct (fr_corr frm); simpl; auto. rewrite app_length. simpl. lia. }
  apply (foldM_inv (fun done '(cor, targ) =>
     length cor = length c0 /\ Z.of_nat (length done) <= Z.of_nat (length c0) /\
     (forall c, (c < length done)%nat -> exists ix r, nth_error inds c = Some ix /\ nth_error cor c = Some r /\ co_p r = new_p ix) /\
     (forall i r, (length done <= i)%nat -> nth_error c0 i = Some r -> exists r', nth_error cor i = Some r' /\ co_p r' = co_p r) /\
     ((exists c ix, (c < length done)%nat /\ nth_error inds c = Some ix /\ ix <> PT_UNUSED) -> forall r, In r cor -> co_nr r = fr_num frm))) in H.
  - destruct H as (A & B & C & D & E). rewrite zrange_length, Z.sub_0_r in *.
    split; [lia|]. split; [lia|]. split; [|split; [|split]].
    + intros c Hc. apply C. lia.
    + intros i r Hi Hr. apply (D i r); [lia|]. unfold c0, np_resize1. destruct (fr_corr frm) eqn:Ef; [destruct i; discriminate|].
      rewrite nth_error_app1; auto. apply nth_error_Some. congruence.
    + intros Hn r0 Hr0. apply (D (length (fr_corr frm)) r0); [lia|]. unfold c0, np_resize1.
      destruct (fr_corr frm) as [|x t] eqn:Ef; [discriminate|]. injection Hr0 as ->.
      rewrite nth_error_app2, Nat.sub_diag by lia. reflexivity.
    + intros (c & ix & Hc & Hix). apply E. exists c, ix. split; [lia|auto].
  - split; auto. split; [simpl; lia|]. split; [simpl; lia|]. split; [intros i r _ Hr; eauto|]. intros (c & ix & Hc & _). simpl in Hc. lia.
  - intros done cam rest [cor1 targ1] [cor2 targ2] Ez (A & B & C & D & E) Hs.
    apply zrange_split in Ez as (_ & Hcam & Ecam). replace cam with (Z.of_nat (length done)) in * by lia.
    set (k := length done) in *.
    apply bind_ok in Hs as (row & Hrow & Hs). apply pyget_ok_iff in Hrow; [|lia]. rewrite Nat2Z.id in Hrow.
    assert (Lk : (k < length cor1)%nat) by (apply nth_error_Some; congruence).
    apply bind_ok in Hs as (cc & Hcc & Hs). rewrite pyset_in_range in Hcc by lia. injection Hcc as <-. rewrite Nat2Z.id in Hs.
    apply bind_ok in Hs as (ix & Hix & Hs). apply pyget_ok_iff in Hix; [|lia]. rewrite Nat2Z.id in Hix.
    rewrite app_length. cbn [length]. rewrite Nat.add_1_r.
    destruct (Z.eqb_spec ix PT_UNUSED) as [Eu|Nu].
    + injection Hs as <- <-. rewrite upd_length. split; auto. split; [lia|]. split; [|split].
      * intros c Hc. destruct (Nat.eq_dec c k) as [->|N].
        -- eexists ix, _. split; auto. split; [apply nth_error_upd_eq; auto|]. unfold new_p. rewrite Eu. reflexivity.
        -- destruct (C c ltac:(lia)) as (ix' & r' & C1 & C2 & C3). exists ix', r'. rewrite nth_error_upd_neq by auto. auto.
      * intros i r Hi Hr. destruct (D i r ltac:(lia) Hr) as (r' & D1 & D2). exists r'. rewrite nth_error_upd_neq by lia. auto.
      * intros (c & ix' & Hc & Hix' & Nx) r Hr.
        assert (Hlt : (c < k)%nat). { destruct (Nat.eq_dec c k) as [->|]; [congruence|lia]. }
        apply In_nth_error in Hr as (j & Hj). rewrite nth_error_upd in Hj. apply Nat.ltb_lt in Lk. rewrite Lk in Hj.
        assert (EX : exists c ix, (c < k)%nat /\ nth_error inds c = Some ix /\ ix <> PT_UNUSED) by eauto.
        destruct (j =? k)%nat; [injection Hj as <-; cbn [co_nr]; apply (E EX); eapply nth_error_In; eauto|].
        apply (E EX). eapply nth_error_In; eauto.
    + apply bind_ok in Hs as (tl & _ & Hs). apply bind_ok in Hs as (t & _ & Hs). apply bind_ok in Hs as (tl' & _ & Hs).
      apply bind_ok in Hs as (targ' & _ & Hs). apply bind_ok in Hs as (cc & Hcc & Hs). injection Hs as <- <-.
      rewrite pyset_in_range in Hcc by (rewrite upd_length; lia). injection Hcc as <-. rewrite Nat2Z.id, upd_upd.
      rewrite map_length, upd_length. split; auto. split; [lia|]. split; [|split].
      * intros c Hc. rewrite nth_error_map. destruct (Nat.eq_dec c k) as [->|N].
        -- eexists ix, _. split; auto. rewrite nth_error_upd_eq by auto. split; [reflexivity|]. cbn [co_p].
           unfold new_p. destruct (Z.eqb_spec ix PT_UNUSED); [contradiction|reflexivity].
        -- destruct (C c ltac:(lia)) as (ix' & r' & C1 & C2 & C3). rewrite nth_error_upd_neq, C2 by auto.
           eexists ix', _. split; auto. split; [reflexivity|]. auto.
      * intros i r Hi Hr. destruct (D i r ltac:(lia) Hr) as (r' & D1 & D2). rewrite nth_error_map, nth_error_upd_neq, D1 by lia.
        eexists. split; [reflexivity|]. auto.
      * intros _ r Hr. apply in_map_iff in Hr as (x & <- & _). reflexivity.
Qed.

Lemma pyidx_cases n ix k : pyidx n ix = Some k -> k = Z.to_nat (if ix <? 0 then Z.of_nat n + ix else ix).
Proof.
  unfold pyidx. intros H. destruct (Z.ltb_spec ix 0);
  repeat match type of H with context[if ?b then _ else _] => destruct b eqn:? end; try discriminate; injection H as <-; auto; lia.
Qed.
(** the targets: in each camera the chosen one is tagged *)
Theorem add_particle_targets nc frm pos inds frm' : 0 <= nc ->
  add_particle nc frm pos inds = Ok frm' ->
  (forall c, nc <= Z.of_nat c -> nth_error (fr_targ frm') c = nth_error (fr_targ frm) c) /\
  forall c ix, Z.of_nat c < nc -> nth_error inds c = Some ix ->
    if ix =? PT_UNUSED then nth_error (fr_targ frm') c = nth_error (fr_targ frm) c
    else exists tl t, nth_error (fr_targ frm) c = Some tl /\
           let k := Z.to_nat (if ix <? 0 then Z.of_nat (length tl) + ix else ix) in
           nth_error tl k = Some t /\
           nth_error (fr_targ frm') c = Some (upd tl k (set_tnr t (fr_num frm))).
Proof.
  intros Hnc H. unfold add_particle in H. destruct (_ >? _); [discriminate|].
  apply bind_ok in H as ([cor targ] & H & H'). injection H' as <-. cbn [fr_targ snd].
  apply (foldM_inv (fun done '(_, targ) =>
    (forall c, (length done <= c)%nat -> nth_error targ c = nth_error (fr_targ frm) c) /\
    forall c ix, (c < length done)%nat -> nth_error inds c = Some ix ->
    if ix =? PT_UNUSED then nth_error targ c = nth_error (fr_targ frm) c
    else exists tl t, nth_error (fr_targ frm) c = Some tl /\
           let k := Z.to_nat (if ix <? 0 then Z.of_nat (length tl) + ix else ix) in
           nth_error tl k = Some t /\
           nth_error targ c = Some (upd tl k (set_tnr t (fr_num frm))))) in H.
  - destruct H as (A & B). rewrite zrange_length, Z.sub_0_r in *. split; [intros c Hc; apply A; lia|intros c ix Hc; apply B; lia].
  - split; [auto|intros c ix Hc; simpl in Hc; lia].
  - intros done cam rest [cor1 targ1] [cor2 targ2] Ez (A & B) Hs.
    apply zrange_split in Ez as (_ & Hcam & Ecam). replace cam with (Z.of_nat (length done)) in * by lia.
    set (k := length done) in *. rewrite app_length. cbn [length]. rewrite Nat.add_1_r.
    apply bind_ok in Hs as (row & _ & Hs). apply bind_ok in Hs as (cc & _ & Hs).
    apply bind_ok in Hs as (ix & Hix & Hs). apply pyget_ok_iff in Hix; [|lia]. rewrite Nat2Z.id in Hix.
    destruct (ix =? PT_UNUSED) eqn:Eu.
    + injection Hs as <- <-. split; [intros c Hc; apply A; lia|]. intros c ix' Hc Hc'.
      destruct (Nat.eq_dec c k) as [->|N]; [|apply B; auto; lia].
      assert (ix' = ix) as -> by congruence. rewrite Eu. apply A. lia.
    + apply bind_ok in Hs as (tl & Htl & Hs). apply pyget_ok_iff in Htl; [|lia]. rewrite Nat2Z.id in Htl.
      apply bind_ok in Hs as (t & Ht & Hs). apply bind_ok in Hs as (tl' & Htl' & Hs).
      apply bind_ok in Hs as (targ' & Htg & Hs). apply bind_ok in Hs as (cc' & _ & Hs). injection Hs as <- <-.
      assert (Lk : (k < length targ1)%nat) by (apply nth_error_Some; congruence).
      rewrite pyset_in_range in Htg by lia. injection Htg as <-. rewrite Nat2Z.id.
      split; [intros c Hc; rewrite nth_error_upd_neq by lia; apply A; lia|].
      intros c ix' Hc Hc'. destruct (Nat.eq_dec c k) as [->|N]; [|rewrite nth_error_upd_neq by auto; apply B; auto; lia].
      assert (ix' = ix) as -> by congruence. rewrite Eu. exists tl, t. rewrite A in Htl by lia. split; auto.
      unfold pyget in Ht. unfold pyset in Htl'. destruct (pyidx (length tl) ix) as [m|] eqn:Em; [|discriminate].
      destruct (nth_error tl m) as [u|] eqn:Ek; [|discriminate]. injection Ht as ->. injection Htl' as <-.
      apply pyidx_cases in Em. cbv zeta. rewrite <- Em. split; auto. apply nth_error_upd_eq; auto.
Qed.
