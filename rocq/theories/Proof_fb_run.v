(** Whole tracking runs: links between the frames of a sequence. *)
From Verif Require Import Base Lib F64 Model_track Spec_track Model_fb Spec_fb Proof_fb.
Local Open Scope Z_scope.

Lemma prev_of_same a b : length a = length b ->
  (forall h p, nth_error a h = Some p -> exists q, nth_error b h = Some q /\ p_prev q = p_prev p) -> forall k, prev_of b k = prev_of a k.
Proof.
  intros L H k. unfold prev_of. destruct (nth_error a k) as [p|] eqn:E.
  - destruct (H k p E) as (q & -> & ->). reflexivity.
  - assert (nth_error b k = None) as -> by (apply nth_error_None; apply nth_error_None in E; lia). reflexivity.
Qed.
Lemma next_of_same a b : length a = length b ->
  (forall h p, nth_error a h = Some p -> exists q, nth_error b h = Some q /\ p_next q = p_next p) -> forall k, next_of b k = next_of a k.
Proof.
  intros L H k. unfold next_of. destruct (nth_error a k) as [p|] eqn:E.
  - destruct (H k p E) as (q & -> & ->). reflexivity.
  - assert (nth_error b k = None) as -> by (apply nth_error_None; apply nth_error_None in E; lia). reflexivity.
Qed.

Section Fwd.
Variable D : Type.
Variable parse : bool -> D -> result frame.
Variable store : frame -> D.
Variable fstep : frame -> frame -> frame -> frame -> result (frame * frame * frame * Z).
Hypothesis fstep_links : forall buf0 b1 b2 b3 c1 c2 c3 cnt,
  frame_ok b1 -> frame_ok b2 -> frame_ok b3 ->
  (forall p, In p (fr_path b1) -> p_next p = NEXT_NONE) ->
  (forall p, In p (fr_path b2) -> fresh_particle p) ->
  fstep buf0 b1 b2 b3 = Ok (c1, c2, c3, cnt) ->
  mutual (fr_path c1) (fr_path c2) /\
  length (fr_path c1) = length (fr_path b1) /\
  (forall h p, nth_error (fr_path b1) h = Some p -> exists q, nth_error (fr_path c1) h = Some q /\ p_x q = p_x p /\ p_prev q = p_prev p) /\
  (forall p, In p (fr_path c2) -> p_next p = NEXT_NONE) /\
  (exists l, map p_x (fr_path c2) = map p_x (fr_path b2) ++ l) /\
  only_added b3 c3 /\ frame_ok c1 /\ frame_ok c2 /\ frame_ok c3.
Hypothesis fstep_unread : forall buf0 b1 b2 b3 c1 c2 c3 cnt, unread b3 -> fstep buf0 b1 b2 b3 = Ok (c1, c2, c3, cnt) ->
  exists b3' c3', frame_ok b3' /\ fstep buf0 b1 b2 b3' = Ok (c1, c2, c3', cnt).

Theorem forward_run_links first last e0 e1 e2 e3 (d0 : disk D) buf d1 nl : first < last ->
  (forall n f, parse false (d0 n) = Ok f -> frame_ok f /\ forall p, In p (fr_path f) -> fresh_particle p) ->
  (last <= first + 2 -> frame_ok e2 \/ unread e2) ->
  full_forward frame D parse store fstep first last ([e0; e1; e2; e3], d0) = Ok ((buf, d1), nl) ->
  exists W : Z -> frame,
    (forall s, first <= s <= last -> d1 s = store (W s)) /\
    (forall s, ~ first <= s <= last -> d1 s = d0 s) /\
    (forall s, first <= s < last -> mutual (fr_path (W s)) (fr_path (W (s + 1)))) /\
    (forall p, In p (fr_path (W first)) -> p_prev p = PREV_NONE) /\
    (forall p, In p (fr_path (W last)) -> p_next p = NEXT_NONE) /\
    (forall s f, first <= s <= last -> parse false (d0 s) = Ok f ->
       exists l, map p_x (fr_path (W s)) = map p_x (fr_path f) ++ l).
Proof.
  intros Hl HP He H. apply forward_ok in H as (A & B & C & E & N & A0 & HH & HW & HWl & HO & _); auto.
  destruct HH as (P1 & P2 & P3 & HS).
  assert (READ : forall n f, parse false (d0 n) = Ok f -> frame_ok f) by (intros n f Hf; now apply HP in Hf).
  assert (G : forall n s, s = first + Z.of_nat n -> s < last ->
     (first < s -> frame_ok (A s)) /\ frame_ok (B s) /\ frame_ok (C s) /\ ((frame_ok (E s) \/ unread (E s)) /\ (s = first \/ s + 2 <= last -> frame_ok (E s))) /\
     (forall p, In p (fr_path (B s)) -> p_next p = NEXT_NONE) /\
     (forall p, In p (fr_path (C s)) -> fresh_particle p) /\
     (s = first \/ s + 2 <= last -> forall p, In p (fr_path (E s)) -> fresh_particle p) /\
     (forall f, parse false (d0 s) = Ok f -> exists l, map p_x (fr_path (B s)) = map p_x (fr_path f) ++ l) /\
     (forall f, parse false (d0 (s + 1)) = Ok f -> exists l, map p_x (fr_path (C s)) = map p_x (fr_path f) ++ l) /\
     (forall f, s = first \/ s + 2 <= last -> parse false (d0 (s + 2)) = Ok f -> exists l, map p_x (fr_path (E s)) = map p_x (fr_path f) ++ l)).
  { induction n as [|n IH]; intros s -> Hs.
    - rewrite Z.add_0_r. split; [lia|]. split; [eauto|]. split; [eauto|]. split; [eauto|]. split; [|split; [|split; [|split; [|split]]]].
      + intros p Hp. apply (proj2 (HP _ _ P1) p) in Hp. apply Hp.
      + intros p Hp. now apply (proj2 (HP _ _ P2) p) in Hp.
      + intros _ p Hp. now apply (proj2 (HP _ _ P3) p) in Hp.
      + intros f Hf. exists []. rewrite P1 in Hf. injection Hf as <-. now rewrite app_nil_r.
      + intros f Hf. exists []. rewrite P2 in Hf. injection Hf as <-. now rewrite app_nil_r.
      + intros f _ Hf. exists []. rewrite P3 in Hf. injection Hf as <-. now rewrite app_nil_r.
    - set (k := first + Z.of_nat n). replace (first + Z.of_nat (S n)) with (k + 1) in * by (unfold k; lia).
      destruct (IH k eq_refl ltac:(lia)) as (I1 & I2 & I3 & (I4o & I4) & I5 & I6 & I7 & I8 & I9 & I10). specialize (I4 ltac:(lia)).
      destruct (HS k ltac:(unfold k in *; lia)) as (S1 & S2).
      destruct (fstep_links _ _ _ _ _ _ _ _ I2 I3 I4 I5 I6 S1) as (L1 & L2 & L3 & L4 & L5 & L6 & L7 & L8 & L9).
      assert (FE : (frame_ok (E (k + 1)) \/ unread (E (k + 1))) /\ (k + 1 = first \/ k + 1 + 2 <= last -> frame_ok (E (k + 1)))).
      { destruct (Z.leb_spec (k + 3) last); [eauto|]. split; [|unfold k in *; lia]. rewrite S2. destruct (Z.eq_dec k first) as [->|]; [rewrite A0; apply He; lia|left; apply I1; unfold k in *; lia]. }
      assert (K2 : k = first \/ k + 2 <= last) by lia.
      split; auto. split; auto. split; auto. split; auto. split; [|split; [|split; [|split; [|split]]]]; auto.
      + intros p Hp. destruct L6 as (l & El & Fl). rewrite El in Hp. apply in_app_or in Hp as [Hp|Hp]; [now apply I7|].
        rewrite Forall_forall in Fl. auto.
      + intros Hx p Hp. destruct (Z.leb_spec (k + 3) last); [|unfold k in *; lia]. apply HP in S2 as (_ & S2). now apply S2.
      + intros f Hf. destruct (I9 f Hf) as (l1 & E1). destruct L5 as (l2 & E2). exists (l1 ++ l2). now rewrite E2, E1, app_assoc.
      + intros f Hf. replace (k + 1 + 1) with (k + 2) in Hf by lia. destruct (I10 f K2 Hf) as (l1 & E1). destruct L6 as (l2 & E2 & _).
        rewrite E2, map_app, E1. exists (l1 ++ map p_x l2). now rewrite app_assoc.
      + intros f Hx Hf. destruct (Z.leb_spec (k + 3) last); [|unfold k in *; lia]. exists [].
        replace (k + 1 + 2) with (k + 3) in Hf by lia. rewrite S2 in Hf. injection Hf as <-. now rewrite app_nil_r. }
  assert (STEP : forall s, first <= s < last ->
     mutual (fr_path (A (s + 1))) (fr_path (B (s + 1))) /\ length (fr_path (A (s + 1))) = length (fr_path (B s)) /\
     (forall h p, nth_error (fr_path (B s)) h = Some p -> exists q, nth_error (fr_path (A (s + 1))) h = Some q /\ p_x q = p_x p /\ p_prev q = p_prev p) /\
     (forall p, In p (fr_path (B (s + 1))) -> p_next p = NEXT_NONE) /\
     (exists l, map p_x (fr_path (B (s + 1))) = map p_x (fr_path (C s)) ++ l)).
  { intros s Hs. destruct (G (Z.to_nat (s - first)) s ltac:(lia) ltac:(lia)) as (I1 & I2 & I3 & (I4 & _) & I5 & I6 & _).
    destruct (HS s Hs) as (S1 & _).
    destruct I4 as [I4|I4]; [|apply (fstep_unread _ _ _ _ _ _ _ _ I4) in S1 as (b3' & c3' & I4' & S1); clear I4; rename I4' into I4].
    all: destruct (fstep_links _ _ _ _ _ _ _ _ I2 I3 I4 I5 I6 S1) as (L1 & L2 & L3 & L4 & L5 & _); auto. }
  assert (MX : forall s, first <= s < last -> map p_x (fr_path (A (s + 1))) = map p_x (fr_path (B s))).
  { intros s Hs. destruct (STEP s Hs) as (_ & L & X & _). apply nth_error_ext. intros i. rewrite !nth_error_map.
    destruct (nth_error (fr_path (B s)) i) as [p|] eqn:Ep.
    - destruct (X i p Ep) as (q & -> & Hq & _). simpl. now rewrite Hq.
    - assert (nth_error (fr_path (A (s + 1))) i = None) as -> by (apply nth_error_None; apply nth_error_None in Ep; lia). reflexivity. }
  exists (fun s => if s <? last then A (s + 1) else B last). split; [|split; [|split; [|split; [|split]]]].
  - intros s Hs. destruct (Z.ltb_spec s last); [apply HW; lia|]. assert (s = last) as -> by lia. auto.
  - auto.
  - intros s Hs. destruct (Z.ltb_spec s last); [|lia]. destruct (STEP s Hs) as (M & _).
    destruct (Z.ltb_spec (s + 1) last) as [Hn|Hn].
    + destruct (STEP (s + 1) ltac:(lia)) as (_ & L & X & _). intros h k.
      rewrite (prev_of_same (fr_path (B (s + 1)))); [apply M|now symmetry|]. intros i p Hi. destruct (X i p Hi) as (q & Q1 & _ & Q2). eauto.
    + assert (X : last = s + 1) by lia. cbn beta. rewrite X. exact M.
  - destruct (Z.ltb_spec first last); [|lia]. intros p Hp. apply In_nth_error in Hp as (i & Hi).
    destruct (STEP first ltac:(lia)) as (_ & L & X & _).
    assert ((i < length (fr_path (A (first + 1)%Z)))%nat) by (apply nth_error_Some; congruence).
    destruct (nth_error (fr_path (B first)) i) as [p0|] eqn:E0; [|apply nth_error_None in E0; lia].
    destruct (X i p0 E0) as (q & Q1 & _ & Q2). assert (q = p) as -> by congruence. rewrite Q2.
    apply nth_error_In in E0. apply (proj2 (HP _ _ P1) p0) in E0. apply E0.
  - destruct (Z.ltb_spec last last); [lia|]. destruct (STEP (last - 1) ltac:(lia)) as (_ & _ & _ & X & _).
    replace (last - 1 + 1) with last in X by lia. exact X.
  - intros s f Hs Hf. destruct (Z.ltb_spec s last) as [Hn|Hn].
    + rewrite MX by lia. destruct (G (Z.to_nat (s - first)) s ltac:(lia) ltac:(lia)) as (_ & _ & _ & _ & _ & _ & _ & I8 & _). auto.
    + assert (s = last) as -> by lia. destruct (STEP (last - 1) ltac:(lia)) as (_ & _ & _ & _ & (l & X)).
      replace (last - 1 + 1) with last in X by lia.
      destruct (G (Z.to_nat (last - 1 - first)) (last - 1) ltac:(lia) ltac:(lia)) as (_ & _ & _ & _ & _ & _ & _ & _ & I9 & _).
      replace (last - 1 + 1) with last in I9 by lia. destruct (I9 f Hf) as (l1 & E1). exists (l1 ++ l). now rewrite X, E1, app_assoc.
Qed.
End Fwd.

Section Bwd.
Variable D : Type.
Variable parse : bool -> D -> result frame.
Variable store : frame -> D.
Variable bstep : frame -> frame -> frame -> frame -> result (frame * frame * Z).
Hypothesis bstep_links : forall buf0 b1 b2 b3 c1 c2 cnt,
  frame_ok b1 -> frame_ok b2 ->
  (forall p, In p (fr_path b1) -> p_inlist p = 0) ->
  back_mutual (fr_path b1) (fr_path b2) ->
  bstep buf0 b1 b2 b3 = Ok (c1, c2, cnt) ->
  back_mutual (fr_path c1) (fr_path c2) /\
  length (fr_path c1) = length (fr_path b1) /\ length (fr_path c2) = length (fr_path b2) /\
  (forall h p, nth_error (fr_path b1) h = Some p -> exists q, nth_error (fr_path c1) h = Some q /\ p_x q = p_x p /\
     p_next q = p_next p /\ (p_prev p <> PREV_NONE -> p_prev q = p_prev p)) /\
  (forall k r, nth_error (fr_path b2) k = Some r -> exists s, nth_error (fr_path c2) k = Some s /\ p_x s = p_x r /\
     p_inlist s = p_inlist r /\ p_prev s = p_prev r /\ (p_next r <> NEXT_NONE -> p_next s = p_next r)) /\
  (fr_num c2, fr_corr c2, fr_targ c2) = (fr_num b2, fr_corr b2, fr_targ b2).

Theorem backward_run_links first last (d0 : disk D) R A B C E N : first + 2 <= last ->
  backward_history frame D parse bstep first last d0 A B C E N ->
  (forall n, Z.min first (last - 3) <= n <= last -> parse true (d0 n) = Ok (R n) /\ frame_ok (R n) /\ forall p, In p (fr_path (R n)) -> p_inlist p = 0) ->
  (forall n, Z.min first (last - 3) <= n < last -> mutual (fr_path (R n)) (fr_path (R (n + 1)))) ->
  let W s := if s =? first then B first else A (s - 1) in
  (forall s, first <= s < last -> mutual (fr_path (W s)) (fr_path (W (s + 1)))) /\
  W last = R last /\
  (forall s, first <= s <= last -> length (fr_path (W s)) = length (fr_path (R s)) /\
    forall h p, nth_error (fr_path (R s)) h = Some p -> exists q, nth_error (fr_path (W s)) h = Some q /\ p_x q = p_x p /\
      (p_next p <> NEXT_NONE -> p_next q = p_next p) /\ (p_prev p <> PREV_NONE -> p_prev q = p_prev p)).
Proof.
  intros Hl (P1 & P2 & P3 & P4 & HS) HR HM W.
  assert (R1 : forall n f, Z.min first (last - 3) <= n <= last -> parse true (d0 n) = Ok f -> f = R n).
  { intros n f Hn Hf. destruct (HR n Hn) as (Hx & _). congruence. }
  apply R1 in P1, P2, P3, P4; try lia.
  assert (G : forall n s, s = last - 1 - Z.of_nat n -> first < s ->
     C s = R (s - 1) /\ (first <= s - 2 \/ s = last - 1 -> E s = R (s - 2)) /\
     length (fr_path (B s)) = length (fr_path (R s)) /\ fr_num (B s) = fr_num (R s) /\ fr_targ (B s) = fr_targ (R s) /\
     (forall h p, nth_error (fr_path (R s)) h = Some p -> exists q, nth_error (fr_path (B s)) h = Some q /\ p_x q = p_x p /\
       p_inlist q = p_inlist p /\ p_prev q = p_prev p /\ (p_next p <> NEXT_NONE -> p_next q = p_next p)) /\
     back_mutual (fr_path (A s)) (fr_path (B s))).
  { induction n as [|n IH]; intros s -> Hs.
    - rewrite Z.sub_0_r. replace (last - 1 - 1) with (last - 2) by lia. replace (last - 1 - 2) with (last - 3) by lia.
      rewrite P1, P2. split; auto. split; auto. split; auto. split; auto. split; auto. split; [intros h p Hp; exists p; auto|].
      intros h k. specialize (HM (last - 1) ltac:(lia) k h). replace (last - 1 + 1) with last in HM by lia. symmetry. exact HM.
    - set (k := last - 1 - Z.of_nat n). replace (last - 1 - Z.of_nat (S n)) with (k - 1) in * by (unfold k; lia).
      destruct (IH k eq_refl ltac:(lia)) as (I1 & I2 & I3 & I4 & I5 & I6 & I7).
      destruct (HS k ltac:(unfold k in *; lia)) as (S1 & S2 & S3).
      assert (FO : frame_ok (B k)).
      { destruct (HR k ltac:(unfold k in *; lia)) as (_ & (X1 & X2) & _). split; [now rewrite I4, I3|]. now rewrite I5. }
      assert (FC : frame_ok (C k)) by (rewrite I1; apply HR; unfold k in *; lia).
      assert (PV : forall h, prev_of (fr_path (B k)) h = prev_of (fr_path (R k)) h).
      { apply prev_of_same; auto. intros h p Hp. destruct (I6 h p Hp) as (q & Q1 & _ & _ & Q2 & _). eauto. }
      assert (IL : forall p, In p (fr_path (B k)) -> p_inlist p = 0).
      { intros p Hp. apply In_nth_error in Hp as (i & Hi). assert (i < length (fr_path (B k)))%nat by (apply nth_error_Some; congruence).
        destruct (nth_error (fr_path (R k)) i) as [p0|] eqn:E0; [|apply nth_error_None in E0; lia].
        destruct (I6 i p0 E0) as (q & Q1 & _ & Q2 & _). assert (q = p) as -> by congruence. rewrite Q2.
        apply (HR k ltac:(unfold k in *; lia)). eapply nth_error_In; eauto. }
      assert (BM : back_mutual (fr_path (B k)) (fr_path (C k))).
      { intros h j. rewrite PV, I1. specialize (HM (k - 1) ltac:(unfold k in *; lia) j h). replace (k - 1 + 1) with k in HM by lia. symmetry. exact HM. }
      destruct (bstep_links _ _ _ _ _ _ _ FO FC IL BM S1) as (L1 & L2 & L3 & L4 & L5 & L6). injection L6 as N1 _ N3.
      assert (K2 : first <= k - 2 \/ k = last - 1) by lia.
      split; [|split]. 1: { rewrite S2. rewrite I2 by auto. f_equal. lia. }
      1: { intros [Hx|Hx]; [|unfold k in *; lia]. destruct (Z.leb_spec first (k - 3)); [|lia]. replace (k - 1 - 2) with (k - 3) by lia.
           apply R1; auto. unfold k in *. lia. }
      rewrite N1, N3, L3, I1. split; auto. split; auto. split; auto. split; [|exact L1].
      intros h p Hp. rewrite I1 in L5. destruct (L5 h p Hp) as (q & Q1 & Q2 & Q3 & Q4 & Q5). eauto 10. }
  assert (STEP : forall s, first < s < last ->
     back_mutual (fr_path (A (s - 1))) (fr_path (B (s - 1))) /\ length (fr_path (A (s - 1))) = length (fr_path (B s)) /\
     length (fr_path (B (s - 1))) = length (fr_path (R (s - 1))) /\
     (forall h p, nth_error (fr_path (B s)) h = Some p -> exists q, nth_error (fr_path (A (s - 1))) h = Some q /\ p_x q = p_x p /\
       p_next q = p_next p /\ (p_prev p <> PREV_NONE -> p_prev q = p_prev p)) /\
     (forall k r, nth_error (fr_path (R (s - 1))) k = Some r -> exists q, nth_error (fr_path (B (s - 1))) k = Some q /\ p_x q = p_x r /\
       p_inlist q = p_inlist r /\ p_prev q = p_prev r /\ (p_next r <> NEXT_NONE -> p_next q = p_next r))).
  { intros k Hs. destruct (G (Z.to_nat (last - 1 - k)) k ltac:(lia) ltac:(lia)) as (I1 & I2 & I3 & I4 & I5 & I6 & I7).
    destruct (HS k ltac:(lia)) as (S1 & S2 & S3).
    assert (FO : frame_ok (B k)).
    { destruct (HR k ltac:(lia)) as (_ & (X1 & X2) & _). split; [now rewrite I4, I3|]. now rewrite I5. }
    assert (FC : frame_ok (C k)) by (rewrite I1; apply HR; lia).
    assert (PV : forall h, prev_of (fr_path (B k)) h = prev_of (fr_path (R k)) h).
    { apply prev_of_same; auto. intros h p Hp. destruct (I6 h p Hp) as (q & Q1 & _ & _ & Q2 & _). eauto. }
    assert (IL : forall p, In p (fr_path (B k)) -> p_inlist p = 0).
    { intros p Hp. apply In_nth_error in Hp as (i & Hi). assert (i < length (fr_path (B k)))%nat by (apply nth_error_Some; congruence).
      destruct (nth_error (fr_path (R k)) i) as [p0|] eqn:E0; [|apply nth_error_None in E0; lia].
      destruct (I6 i p0 E0) as (q & Q1 & _ & Q2 & _). assert (q = p) as -> by congruence. rewrite Q2.
      apply (HR k ltac:(lia)). eapply nth_error_In; eauto. }
    assert (BM : back_mutual (fr_path (B k)) (fr_path (C k))).
    { intros h j. rewrite PV, I1. specialize (HM (k - 1) ltac:(lia) j h). replace (k - 1 + 1) with k in HM by lia. symmetry. exact HM. }
    destruct (bstep_links _ _ _ _ _ _ _ FO FC IL BM S1) as (L1 & L2 & L3 & L4 & L5 & L6). rewrite I1 in L3, L5. auto. }
  assert (WL : W last = R last).
  { unfold W. destruct (Z.eqb_spec last first); [lia|]. exact P1. }
  (* every W against the frame that was read *)
  assert (KEEP : forall s, first <= s <= last -> length (fr_path (W s)) = length (fr_path (R s)) /\
    forall h p, nth_error (fr_path (R s)) h = Some p -> exists q, nth_error (fr_path (W s)) h = Some q /\ p_x q = p_x p /\
      (p_next p <> NEXT_NONE -> p_next q = p_next p) /\ (p_prev p <> PREV_NONE -> p_prev q = p_prev p)).
  { intros s Hs. destruct (Z.eq_dec s last) as [->|Nl].
    { rewrite WL. split; auto. intros h p Hp. exists p. auto. }
    unfold W. destruct (Z.eqb_spec s first) as [->|Nf].
    - destruct (STEP (first + 1) ltac:(lia)) as (_ & _ & X3 & _ & X5). replace (first + 1 - 1) with first in * by lia. split; auto.
      intros h p Hp. destruct (X5 h p Hp) as (q & Q1 & Q2 & Q3 & Q4 & Q5). exists q. repeat split; auto; congruence.
    - destruct (STEP s ltac:(lia)) as (_ & X2 & _ & X4 & _).
      destruct (G (Z.to_nat (last - 1 - s)) s ltac:(lia) ltac:(lia)) as (_ & _ & I3 & _ & _ & I6 & _). split; [lia|].
      intros h p Hp. destruct (I6 h p Hp) as (q & Q1 & Q2 & Q3 & Q4 & Q5). destruct (X4 h q Q1) as (r & Y1 & Y2 & Y3 & Y4).
      exists r. split; auto. split; [congruence|]. split; [intros Hx; rewrite Y3; auto|]. intros Hx. rewrite Y4; congruence. }
  split; [|split; auto].
  intros s Hs h k.
  (* next of W s, and prev of W (s+1) *)
  assert (BMs : back_mutual (fr_path (W (s + 1))) (fr_path (B s))).
  { unfold W. destruct (Z.eqb_spec (s + 1) first); [lia|]. replace (s + 1 - 1) with s by lia.
    destruct (Z.eq_dec s first) as [->|Ns].
    - destruct (STEP (first + 1) ltac:(lia)) as (X1 & _). replace (first + 1 - 1) with first in X1 by lia. exact X1.
    - destruct (G (Z.to_nat (last - 1 - s)) s ltac:(lia) ltac:(lia)) as (_ & _ & _ & _ & _ & _ & I7). exact I7. }
  assert (NX : next_of (fr_path (W s)) h = next_of (fr_path (B s)) h).
  { unfold W. destruct (Z.eqb_spec s first) as [->|Nf]; auto.
    destruct (STEP s ltac:(lia)) as (_ & X2 & _ & X4 & _). apply next_of_same; [lia|].
    intros i p Hi. destruct (X4 i p Hi) as (q & Q1 & _ & Q2 & _). eauto. }
  rewrite NX. symmetry. apply BMs.
Qed.
End Bwd.
