(** The whole correspondence search: main theorem. *)
From Coq Require Import Permutation Sorted.
From Verif Require Import F64 Model_corr Spec_corr Proof_corr_pm Proof_corr_all Proof_corr_main Proof_corr_prop Prop_corr
  Model_cand Spec_cand Model_misc Spec_misc Proof_misc Model_chain Spec_chain Proof_chain Lib Base.
Local Open Scope Z_scope.

Lemma app_inj_len {A} (a b c d : list A) : length a = length c -> a ++ b = c ++ d -> a = c /\ b = d.
Proof.
  revert c. induction a as [|x a IH]; intros [|y c] L E; cbn in *; try discriminate; auto.
  injection E as -> E. destruct (IH c ltac:(lia) E) as (-> & ->). auto.
Qed.

Section Chain.
Variable srt : list ntupel -> list ntupel.
Variable sort_x : list coord2d -> list coord2d.
Variable flat : Z -> f64 -> f64 -> f64 * f64.
Variable epi : Z -> Z -> f64 -> f64 -> result (f64 * f64 * f64 * f64).
Variable vp : vol_limits.
Variable sens : Z -> sensor.
Variable imgs : list (list target).
Hypothesis SRT : sorts srt.
Hypothesis SX : sorts_by_x sort_x.
Hypothesis US : usable flat epi imgs.

Let flats := map snd (matched sort_x flat imgs).
Let imgs' := map fst (matched sort_x flat imgs).
Let counts := map (fun ts => Z.of_nat (length ts)) imgs'.
Let cands := pair_cands epi vp sens counts flats imgs'.
Let pn := pn sort_x flat imgs.
Let camx := cam_exists sort_x flat epi imgs SX US.
Let lenx := lens sort_x flat epi imgs US.

Lemma len_counts : length counts = 4%nat.
Proof. exact (proj2 (proj2 lenx)). Qed.
Definition valid (a k : Z) : Prop := exists n, nth_error counts (Z.to_nat a) = Some n /\ 0 <= k < n.

Lemma pn_inj a k k' : 0 <= a -> valid a k -> valid a k' -> pn a k = pn a k' -> k = k'.
Proof.
  intros Ha (n & Hn & Hk) (n' & Hn' & Hk') E. rewrite Hn in Hn'. injection Hn' as <-.
  assert (La : (Z.to_nat a < 4)%nat) by (rewrite <- len_counts; apply nth_error_Some; congruence).
  destruct (camx _ La) as (ts & ts' & cs & C). pose proof C as (_ & _ & C3 & C4 & _ & C6 & _ & _ & _ & C10 & _).
  unfold counts, imgs' in Hn. rewrite C4 in Hn. injection Hn as <-.
  unfold pn, Proof_chain.pn in E. rewrite C3 in E.
  destruct (k <? 0) eqn:X1; [lia|]. destruct (k' <? 0) eqn:X2; [lia|].
  destruct (nth_error cs (Z.to_nat k)) as [c|] eqn:E1; [|apply nth_error_None in E1; lia].
  destruct (nth_error cs (Z.to_nat k')) as [c'|] eqn:E2; [|apply nth_error_None in E2; lia].
  assert (Z.to_nat k = Z.to_nat k'); [|lia].
  apply (proj1 (NoDup_nth_error (map c_pnr cs)) C10); [rewrite map_length; apply nth_error_Some; congruence|].
  rewrite !nth_error_map, E1, E2. cbn. now f_equal.
Qed.

Lemma pn_valid a k : 0 <= a -> valid a k -> exists t cs c, target_at imgs a (pn a k) = Some t /\ 0 <= pn a k /\
  nth_error flats (Z.to_nat a) = Some cs /\ nth_error cs (Z.to_nat k) = Some c /\ c_pnr c = pn a k /\ (c_x c, c_y c) = flat a (t_x t) (t_y t).
Proof.
  intros Ha (n & Hn & Hk).
  assert (La : (Z.to_nat a < 4)%nat) by (rewrite <- len_counts; apply nth_error_Some; congruence).
  destruct (camx _ La) as (ts & ts' & cs & C). pose proof C as (C1 & _ & C3 & C4 & _ & C6 & _ & C8 & _ & C10 & _).
  unfold counts, imgs' in Hn. rewrite C4 in Hn. injection Hn as <-.
  destruct (nth_error cs (Z.to_nat k)) as [c|] eqn:E1; [|apply nth_error_None in E1; lia].
  destruct (proj1 (C8 c) (nth_error_In _ _ E1)) as (kk & t & H1 & H2 & H3).
  assert (P : pn a k = Z.of_nat kk). { unfold pn, Proof_chain.pn. destruct (k <? 0) eqn:X; [lia|]. rewrite C3, E1. auto. }
  rewrite P. exists t, cs, c. rewrite Z2Nat.id in H3 by lia. split; [unfold target_at; rewrite C1, Nat2Z.id; auto|].
  split; [lia|]. auto.
Qed.

Lemma pn_neg a k : k < 0 -> pn a k = -1.
Proof. intros H. unfold pn, Proof_chain.pn. destruct (k <? 0) eqn:X; auto. lia. Qed.

(** position 0 holds a target with smallest x *)
Lemma pn_leftmost a : 0 <= a < 4 -> leftmost flat imgs a (pn a 0).
Proof.
  intros Ha. destruct (camx (Z.to_nat a) ltac:(lia)) as (ts & ts' & cs & C).
  pose proof C as (C1 & _ & C3 & C4 & _ & C6 & _ & C8 & C9 & C10 & _ & _ & C13 & _).
  destruct (pn_valid a 0 ltac:(lia)) as (t & cs' & c & T & P & F & N & Q & X).
  { exists (Z.of_nat (length ts)). unfold counts, imgs'. split; auto. lia. }
  unfold flats in F. rewrite C3 in F. injection F as <-.
  split; auto. exists t. split; auto. intros q u Hq Hu.
  unfold target_at in Hu. rewrite C1 in Hu.
  rewrite Z2Nat.id in C8 by lia.
  assert (In (mk_coord2d q (fst (flat a (t_x u) (t_y u))) (snd (flat a (t_x u) (t_y u)))) cs).
  { apply C8. exists (Z.to_nat q), u. split; auto. cbn. split; [lia|]. symmetry; apply surjective_pairing. }
  apply In_nth_error in H as (j & Hj).
  rewrite <- X. cbn [fst].
  destruct j as [|j].
  - change (Z.to_nat 0) with 0%nat in N. rewrite Hj in N. injection N as <-. cbn [c_x].
    pose proof (proj2 US) as U. destruct (U _ _ C1) as (_ & U2). destruct (U2 u (nth_error_In _ _ Hu)) as (NN & _).
    rewrite Z2Nat.id in NN by lia. apply fle_refl. auto.
  - change (Z.to_nat 0) with 0%nat in N. apply (C9 0%nat (S j)); [lia| |]; rewrite nth_error_map; [rewrite N|rewrite Hj]; reflexivity.
Qed.

Definition ids_of (t : ntupel) : list Z :=
  [pn 0 (nth 0 (tp t) 0); pn 1 (nth 1 (tp t) 0); pn 2 (nth 2 (tp t) 0); pn 3 (nth 3 (tp t) 0)].

Lemma nth_ids t cam k : (cam < 4)%nat -> nth_error (tp t) cam = Some k -> nth_error (ids_of t) cam = Some (pn (Z.of_nat cam) k).
Proof.
  intros Hc H. apply (nth_error_nth _ _ 0) in H.
  destruct cam as [|[|[|[|cam]]]]; cbn [ids_of nth_error]; rewrite ?H; try reflexivity. lia.
Qed.

Lemma ids_slots3 t i j k p q r : 0 <= i -> i < j -> j < k -> k < 4 -> tp t = slots [(i, p); (j, q); (k, r)] ->
  ids_of t = numbers_at [(i, pn i p); (j, pn j q); (k, pn k r)].
Proof.
  intros H1 H2 H3 H4 E. unfold ids_of. rewrite E.
  assert (H : (i = 0 /\ j = 1 /\ k = 2) \/ (i = 0 /\ j = 1 /\ k = 3) \/ (i = 0 /\ j = 2 /\ k = 3) \/ (i = 1 /\ j = 2 /\ k = 3)) by lia.
  destruct H as [(-> & -> & ->)|[(-> & -> & ->)|[(-> & -> & ->)|(-> & -> & ->)]]]; reflexivity.
Qed.
Lemma ids_slots2 t i j p q : 0 <= i -> i < j -> j < 4 -> tp t = slots [(i, p); (j, q)] ->
  ids_of t = numbers_at [(i, pn i p); (j, pn j q)].
Proof.
  intros H1 H2 H3 E. unfold ids_of. rewrite E.
  assert (H : (i = 0 /\ j = 1) \/ (i = 0 /\ j = 2) \/ (i = 0 /\ j = 3) \/ (i = 1 /\ j = 2) \/ (i = 1 /\ j = 3) \/ (i = 2 /\ j = 3)) by lia.
  destruct H as [(-> & ->)|[(-> & ->)|[(-> & ->)|[(-> & ->)|[(-> & ->)|(-> & ->)]]]]]; reflexivity.
Qed.

Lemma in_counts_valid t cam k : in_counts 4 counts t -> (cam < 4)%nat -> nth_error (tp t) cam = Some k -> 0 <= k -> valid (Z.of_nat cam) k.
Proof.
  intros (_ & _ & H) Hc Hk H0. destruct (H (Z.of_nat cam) k) as (n & Hn & L).
  { split; [lia|]. split; auto. now rewrite Nat2Z.id. }
  exists n. split; auto.
Qed.

(** sharing a target number is sharing a position *)
Lemma share_clash a b : in_counts 4 counts a -> in_counts 4 counts b -> (share (ids_of a) (ids_of b) <-> clash 4 a b).
Proof.
  intros Ha Hb. split.
  - intros (cam & id & Hid & H1 & H2).
    assert (Hc : (cam < 4)%nat) by (change 4%nat with (length (ids_of a)); apply nth_error_Some; congruence).
    destruct (nth_error (tp a) cam) as [k|] eqn:Ka; [|apply nth_error_None in Ka; destruct Ha; lia].
    destruct (nth_error (tp b) cam) as [k'|] eqn:Kb; [|apply nth_error_None in Kb; destruct Hb; lia].
    rewrite (nth_ids _ _ _ Hc Ka) in H1. rewrite (nth_ids _ _ _ Hc Kb) in H2. injection H1 as H1. injection H2 as H2.
    assert (P1 : 0 <= k). { destruct (Z_lt_le_dec k 0) as [L|L]; auto. rewrite (pn_neg _ _ L) in H1. lia. }
    assert (P2 : 0 <= k'). { destruct (Z_lt_le_dec k' 0) as [L|L]; auto. rewrite (pn_neg _ _ L) in H2. lia. }
    assert (k = k') as <-. { apply (pn_inj (Z.of_nat cam)); [lia|apply (in_counts_valid a); auto|apply (in_counts_valid b); auto|congruence]. }
    exists (Z.of_nat cam), k. unfold member. rewrite Nat2Z.id. repeat split; auto; lia.
  - intros (cam & k & (H1 & H2 & H3) & (_ & _ & H4)).
    exists (Z.to_nat cam), (pn cam k).
    assert (Hc : (Z.to_nat cam < 4)%nat) by lia.
    pose proof (nth_ids _ _ _ Hc H3) as X. pose proof (nth_ids _ _ _ Hc H4) as Y. rewrite Z2Nat.id in X, Y by lia.
    split; [|auto]. pose proof (in_counts_valid a _ k Ha Hc H3 H2) as V. rewrite Z2Nat.id in V by lia.
    destruct (pn_valid cam k ltac:(lia) V) as (_ & _ & _ & _ & P & _). auto.
Qed.

Lemma shows_ids L rows : (forall t, In t L -> in_counts 4 counts t) -> reports 4 flats imgs' L rows -> shows imgs (map ids_of L) rows.
Proof.
  intros HL (R1 & R2). split; auto. intros cam row Hrow.
  assert (Hc : (cam < 4)%nat) by (rewrite <- R1; apply nth_error_Some; congruence).
  specialize (R2 cam row Hrow). clear Hrow. induction R2 as [|t item L' row' Ht R2 IH]; [constructor|].
  cbn [map]. constructor; [|apply IH; intros t' Ht'; apply HL; now right].
  destruct Ht as (k & Hk & Hr). pose proof (HL t (or_introl eq_refl)) as IC.
  exists (pn (Z.of_nat cam) k). split; [apply nth_ids; auto|].
  destruct Hr as [(Hn & ->)|(Hp & csr & c & tgt & F1 & F2 & F3 & ->)].
  - left. rewrite pn_neg by auto. split; reflexivity.
  - right. destruct (pn_valid (Z.of_nat cam) k ltac:(lia) (in_counts_valid t cam k IC Hc Hk Hp)) as (u & cs' & c' & T & P & F & N & Q & X).
    rewrite Nat2Z.id, F1 in F. injection F as <-. rewrite F2 in N. injection N as <-. rewrite <- Q in *. split; auto.
    exists u. split; auto. f_equal; [f_equal|].
    + unfold target_at in F3, T. destruct (camx cam Hc) as (ts & ts' & cs & C). pose proof C as (C1 & C2 & _ & _ & _ & _ & C7 & _).
      rewrite Nat2Z.id in T, F3. rewrite C1 in T. unfold imgs' in F3. rewrite C2 in F3. rewrite (C7 _ _ T) in F3. injection F3 as <-. reflexivity.
    + unfold target_at in F3, T. destruct (camx cam Hc) as (ts & ts' & cs & C). pose proof C as (C1 & C2 & _ & _ & _ & _ & C7 & _).
      rewrite Nat2Z.id in T, F3. rewrite C1 in T. unfold imgs' in F3. rewrite C2 in F3. rewrite (C7 _ _ T) in F3. injection F3 as <-. reflexivity.
Qed.

Section Edges.
Variable cl : adj.
Hypothesis WF : wf_adj 4 counts cl.
Hypothesis DC : distinct_cands cl.
Hypothesis HE : forall a b i na, 0 <= a < b -> b < 4 -> nth_error counts (Z.to_nat a) = Some na -> 0 <= i < na ->
       forall j x d, edge cl a b i j x d <-> exists l, cands a b i = Ok l /\ In (j, x, d) l.
Let comp := compatible flat epi vp sens imgs.

Lemma step_edge a b i j x d : 0 <= a < b -> b < 4 -> valid a i -> edge cl a b i j x d -> valid b j /\ comp a b (pn a i) (pn b j) x d.
Proof. intros H1 H2 H3 H4. exact (edge_compat sort_x flat epi vp sens imgs SX US cl a b i j x d H1 H2 HE H3 H4). Qed.

Lemma quad_good corrmin n0 t : nth_error counts 0 = Some n0 -> is_quad cl n0 corrmin t ->
  good_quad flat epi vp sens imgs corrmin (ids_of t) (tcorr t).
Proof.
  intros N0 (p1 & p2 & p3 & p4 & x12 & d12 & x13 & d13 & x14 & d14 & x23 & d23 & x24 & d24 & x34 & d34 &
     V & E12 & E13 & E14 & E23 & E24 & E34 & TP & TC & AC).
  assert (V1 : valid 0 p1) by (exists n0; auto).
  destruct (step_edge 0 1 _ _ _ _ ltac:(lia) ltac:(lia) V1 E12) as (V2 & C12).
  destruct (step_edge 0 2 _ _ _ _ ltac:(lia) ltac:(lia) V1 E13) as (V3 & C13).
  destruct (step_edge 0 3 _ _ _ _ ltac:(lia) ltac:(lia) V1 E14) as (V4 & C14).
  destruct (step_edge 1 2 _ _ _ _ ltac:(lia) ltac:(lia) V2 E23) as (_ & C23).
  destruct (step_edge 1 3 _ _ _ _ ltac:(lia) ltac:(lia) V2 E24) as (_ & C24).
  destruct (step_edge 2 3 _ _ _ _ ltac:(lia) ltac:(lia) V3 E34) as (_ & C34).
  exists (pn 0 p1), (pn 1 p2), (pn 2 p3), (pn 3 p4), x12, d12, x13, d13, x14, d14, x23, d23, x24, d24, x34, d34.
  unfold ids_of. rewrite TP. cbn [nth]. repeat (split; [solve [auto]|]). auto.
Qed.

Lemma triplet_good corrmin tus t : is_triplet_padded cl 4 counts tus corrmin t -> good_triplet flat epi vp sens imgs corrmin (ids_of t).
Proof.
  intros (i1 & i2 & i3 & n1 & p1 & p2 & p3 & x12 & d12 & x13 & d13 & x23 & d23 & H1 & H2 & H3 & H4 & N & V & _ & _ & _ & E12 & E13 & E23 & TP & TC & AC).
  assert (V1 : valid i1 p1) by (exists n1; auto).
  destruct (step_edge i1 i2 _ _ _ _ ltac:(lia) ltac:(lia) V1 E12) as (V2 & C12).
  destruct (step_edge i1 i3 _ _ _ _ ltac:(lia) ltac:(lia) V1 E13) as (V3 & C13).
  exists i1, i2, i3, (pn i1 p1), (pn i2 p2), (pn i3 p3), x12, d12, x13, d13, x23, d23.
  split; auto. split; auto. split; auto. split; auto. split; [apply ids_slots3; auto|]. split; auto. split; auto.
  split; [|rewrite <- TC; auto].
  destruct E23 as [E23|(-> & -> & -> & _)].
  - left. apply (step_edge i2 i3 _ _ _ _ ltac:(lia) ltac:(lia) V2 E23).
  - right. split; auto. apply pn_leftmost. lia.
Qed.

Lemma pair_good corrmin tus t : is_pair cl 4 counts tus corrmin t -> good_pair flat epi vp sens imgs corrmin (ids_of t).
Proof.
  intros (i1 & i2 & n1 & p1 & p2 & x & d & H1 & H2 & H3 & N & V & _ & _ & E & _ & TP & TC & AC).
  assert (V1 : valid i1 p1) by (exists n1; auto).
  destruct (step_edge i1 i2 _ _ _ _ ltac:(lia) ltac:(lia) V1 E) as (V2 & C12).
  exists i1, i2, (pn i1 p1), (pn i2 p2), x, d. split; auto. split; auto. split; auto.
  split; [apply ids_slots2; auto|]. split; auto. rewrite <- TC. auto.
Qed.

Lemma edge_fun a b i j x d x' d' : edge cl a b i j x d -> edge cl a b i j x' d' -> x = x' /\ d = d'.
Proof.
  intros (c & k & N & K & P & X & D) (c' & k' & N' & K' & P' & X' & D').
  assert (c = c') as <-.
  { destruct N as (_ & _ & _ & l1 & l2 & A & B & C). destruct N' as (_ & _ & _ & l1' & l2' & A' & B' & C').
    rewrite A in A'. injection A' as <-. rewrite B in B'. injection B' as <-. rewrite C in C'. now injection C'. }
  assert (k = k') as <- by (eapply (DC a b i c); eauto).
  rewrite X in X'. rewrite D in D'. injection X' as <-. injection D' as <-. auto.
Qed.

Lemma quad_ids_inj corrmin n0 t t' : nth_error counts 0 = Some n0 -> is_quad cl n0 corrmin t -> is_quad cl n0 corrmin t' ->
  ids_of t = ids_of t' -> t = t'.
Proof.
  intros N0 (p1 & p2 & p3 & p4 & x12 & d12 & x13 & d13 & x14 & d14 & x23 & d23 & x24 & d24 & x34 & d34 &
     V & E12 & E13 & E14 & E23 & E24 & E34 & TP & TC & AC)
   (q1 & q2 & q3 & q4 & y12 & e12 & y13 & e13 & y14 & e14 & y23 & e23 & y24 & e24 & y34 & e34 &
     W & F12 & F13 & F14 & F23 & F24 & F34 & TP' & TC' & AC') E.
  assert (V1 : valid 0 p1) by (exists n0; auto). assert (W1 : valid 0 q1) by (exists n0; auto).
  destruct (step_edge 0 1 _ _ _ _ ltac:(lia) ltac:(lia) V1 E12) as (V2 & _).
  destruct (step_edge 0 2 _ _ _ _ ltac:(lia) ltac:(lia) V1 E13) as (V3 & _).
  destruct (step_edge 0 3 _ _ _ _ ltac:(lia) ltac:(lia) V1 E14) as (V4 & _).
  destruct (step_edge 0 1 _ _ _ _ ltac:(lia) ltac:(lia) W1 F12) as (W2 & _).
  destruct (step_edge 0 2 _ _ _ _ ltac:(lia) ltac:(lia) W1 F13) as (W3 & _).
  destruct (step_edge 0 3 _ _ _ _ ltac:(lia) ltac:(lia) W1 F14) as (W4 & _).
  unfold ids_of in E. rewrite TP, TP' in E. cbn [nth] in E. injection E as A1 A2 A3 A4.
  apply pn_inj in A1; auto; [|lia]. apply pn_inj in A2; auto; [|lia]. apply pn_inj in A3; auto; [|lia]. apply pn_inj in A4; auto; [|lia].
  subst q1 q2 q3 q4.
  destruct (edge_fun _ _ _ _ _ _ _ _ E12 F12) as (-> & ->). destruct (edge_fun _ _ _ _ _ _ _ _ E13 F13) as (-> & ->).
  destruct (edge_fun _ _ _ _ _ _ _ _ E14 F14) as (-> & ->). destruct (edge_fun _ _ _ _ _ _ _ _ E23 F23) as (-> & ->).
  destruct (edge_fun _ _ _ _ _ _ _ _ E24 F24) as (-> & ->). destruct (edge_fun _ _ _ _ _ _ _ _ E34 F34) as (-> & ->).
  destruct t, t'. cbn in *. congruence.
Qed.

(** with early start and at most 40 candidates per target the search misses no quadruplet *)
Hypothesis PC : forall b ts, nth_error imgs b = Some ts -> popcount (Z.of_nat (length ts) / 2) <= 11.
Hypothesis H40 : forall a b p l, NoDup l -> (forall q, In q l -> exists x d, comp a b p q x d) -> (length l <= 40)%nat.
Lemma good_is_quad corrmin n0 ids s : nth_error counts 0 = Some n0 -> good_quad flat epi vp sens imgs corrmin ids s ->
  exists t, is_quad cl n0 corrmin t /\ ids_of t = ids /\ tcorr t = s.
Proof.
  intros N0 (p0 & p1 & p2 & p3 & x01 & d01 & x02 & d02 & x03 & d03 & x12 & d12 & x13 & d13 & x23 & d23 &
     -> & C01 & C02 & C03 & C12 & C13 & C23 & S & AC).
  assert (CE : forall a b p q x d, 0 <= a < b -> b < 4 -> comp a b p q x d ->
     exists i j, valid a i /\ valid b j /\ pn a i = p /\ pn b j = q /\ edge cl a b i j x d).
  { intros a b p q x d Hab Hb C.
    destruct (compat_edge sort_x flat epi vp sens imgs SX US cl a b p q x d Hab Hb HE (fun ts H => PC _ ts H) (H40 a b p) C)
      as (i & j & na & nb & A1 & A2 & A3 & A4 & A5 & A6 & A7).
    exists i, j. split; [exists na; auto|]. split; [exists nb; auto|]. auto. }
  destruct (CE 0 1 _ _ _ _ ltac:(lia) ltac:(lia) C01) as (a0 & a1 & Va0 & Va1 & Pa0 & Pa1 & E01).
  destruct (CE 0 2 _ _ _ _ ltac:(lia) ltac:(lia) C02) as (b0 & a2 & Vb0 & Va2 & Pb0 & Pa2 & E02).
  destruct (CE 0 3 _ _ _ _ ltac:(lia) ltac:(lia) C03) as (c0 & a3 & Vc0 & Va3 & Pc0 & Pa3 & E03).
  destruct (CE 1 2 _ _ _ _ ltac:(lia) ltac:(lia) C12) as (b1 & b2 & Vb1 & Vb2 & Pb1 & Pb2 & E12).
  destruct (CE 1 3 _ _ _ _ ltac:(lia) ltac:(lia) C13) as (c1 & b3 & Vc1 & Vb3 & Pc1 & Pb3 & E13).
  destruct (CE 2 3 _ _ _ _ ltac:(lia) ltac:(lia) C23) as (c2 & c3 & Vc2 & Vc3 & Pc2 & Pc3 & E23).
  assert (b0 = a0) by (apply (pn_inj 0); auto; [lia|congruence]). assert (c0 = a0) by (apply (pn_inj 0); auto; [lia|congruence]).
  assert (b1 = a1) by (apply (pn_inj 1); auto; [lia|congruence]). assert (c1 = a1) by (apply (pn_inj 1); auto; [lia|congruence]).
  assert (b2 = a2) by (apply (pn_inj 2); auto; [lia|congruence]). assert (c2 = a2) by (apply (pn_inj 2); auto; [lia|congruence]).
  assert (b3 = a3) by (apply (pn_inj 3); auto; [lia|congruence]). assert (c3 = a3) by (apply (pn_inj 3); auto; [lia|congruence]).
  subst b0 c0 b1 c1 b2 c2 b3 c3.
  exists {| tp := [a0; a1; a2; a3]; tcorr := s |}. split.
  - exists a0, a1, a2, a3, x01, d01, x02, d02, x03, d03, x12, d12, x13, d13, x23, d23. cbn [tp tcorr].
    destruct Va0 as (n & Hn & L). change (Z.to_nat 0) with 0%nat in Hn. rewrite N0 in Hn. injection Hn as <-.
    repeat (split; [solve [auto]|]). auto.
  - split; [|reflexivity]. unfold ids_of. cbn [tp nth]. congruence.
Qed.
End Edges.

Lemma blank_leftmost cam id : nth_error (ids_of blank) cam = Some id -> leftmost flat imgs (Z.of_nat cam) id.
Proof.
  intros H. assert (Hc : (cam < 4)%nat) by (change 4%nat with (length (ids_of blank)); apply nth_error_Some; congruence).
  rewrite (nth_ids blank cam 0 Hc) in H; [|destruct cam as [|[|[|[|cam]]]]; try reflexivity; lia].
  injection H as <-. apply pn_leftmost. lia.
Qed.

Theorem chain corrmin flag :
  exists Q T P rq rt rp tg,
    match_targets srt sort_x flat epi vp sens corrmin 4 flag imgs = Ok ([rq; rt; rp], Z.of_nat (length (Q ++ T ++ P)), tg) /\
    shows imgs Q rq /\ shows imgs T rt /\ shows imgs P rp /\
    (forall ids, In ids Q -> exists s, quad_score flat epi vp sens imgs corrmin ids s) /\
    (forall ids, In ids T -> good_triplet flat epi vp sens imgs corrmin ids) /\
    (forall ids, In ids P -> good_pair flat epi vp sens imgs corrmin ids) /\
    (flag <> 0 -> T = [] /\ P = []) /\
    (forall i j a b, i <> j -> nth_error (Q ++ T ++ P) i = Some a -> nth_error (Q ++ T ++ P) j = Some b -> ~ share a b) /\
    (forall a p t, 0 <= a -> 0 <= p -> target_at imgs a p = Some t ->
       (exists i ids, nth_error (Q ++ T ++ P) i = Some ids /\ nth_error ids (Z.to_nat a) = Some p /\
          target_at tg a p = Some (mk_target p (t_x t) (t_y t) (t_n t) (t_nx t) (t_ny t) (t_sumg t) (Z.of_nat i))) \/
       ((forall ids, In ids (Q ++ T ++ P) -> nth_error ids (Z.to_nat a) <> Some p) /\
          target_at tg a p = Some (mk_target p (t_x t) (t_y t) (t_n t) (t_nx t) (t_ny t) (t_sumg t) (t_tnr t)))) /\
    ((forall b ts, nth_error imgs b = Some ts -> popcount (Z.of_nat (length ts) / 2) <= 11) ->
     (forall a b p l, NoDup l -> (forall q, In q l -> exists x d, compatible flat epi vp sens imgs a b p q x d) -> (length l <= 40)%nat) ->
     (forall l, NoDup l -> (forall ids, In ids l -> exists s, good_quad flat epi vp sens imgs corrmin ids s) -> Z.of_nat (length l) <= 40000) ->
     forall ids s, good_quad flat epi vp sens imgs corrmin ids s ->
       In ids Q \/ exists ids' s', In ids' Q /\ share ids ids' /\ quad_score flat epi vp sens imgs corrmin ids' s' /\ np_le s s' = true).
Proof.
  destruct lenx as (L1 & L2 & L3). fold imgs' in L1. fold flats in L2. fold imgs' in L3. fold counts in L3.
  assert (CR : forall n, In n counts -> 1 <= n <= NMAX) by (apply (counts_range sort_x flat epi imgs SX US)).
  destruct (C10_match_pairs_exact cands 4 counts (Z.to_nat (max_count counts))) as (cl & EM & WF & DC & HE); [lia|auto| |apply (cands_fit sort_x flat epi vp sens imgs SX US)|].
  { intros n Hn. pose proof (CR n Hn). pose proof (max_count_ge sort_x flat epi vp sens imgs n Hn) as H0. fold imgs' in H0. fold counts in H0. lia. }
  assert (CO : coords_ok 4 counts flats imgs') by (apply (coords sort_x flat epi imgs SX US)).
  destruct (corr4_main srt cl counts corrmin flag flats imgs' SRT WF DC CR CO)
    as (con & tg & Q & T & P & E & Hpre & Hlen & Hdis & Hin & _ & _ & _ & HQ & HT & HP & HF & _).
  destruct (C08_four_cameras srt cl counts corrmin flag flats imgs' SRT WF DC CR CO)
    as (con' & tg' & Q' & T' & P' & rq & rt & rp & E' & Hpre' & Epy & RQ & RT & RP).
  rewrite E in E'. injection E' as <- N1 N2 N3 N4 <-.
  apply Nat2Z.inj in N1. apply Nat2Z.inj in N2. apply Nat2Z.inj in N3. apply Nat2Z.inj in N4. rewrite <- N4, Hpre in Hpre'.
  assert (Q' = Q /\ T' = T /\ P' = P) as (-> & -> & ->).
  { destruct (app_inj_len _ _ _ _ N1 Hpre') as (-> & Hx). destruct (app_inj_len _ _ _ _ N2 Hx) as (-> & ->). auto. }
  assert (N0 : exists n0, nth_error counts 0 = Some n0) by (destruct counts as [|n0 ?]; [discriminate|exists n0; reflexivity]).
  destruct N0 as (n0 & N0). destruct (HQ n0 N0) as (HQ1 & HQ2).
  assert (IQ : forall t, In t Q -> in_counts 4 counts t) by (intros; apply Hin; apply in_or_app; auto).
  assert (IT : forall t, In t T -> in_counts 4 counts t) by (intros; apply Hin; apply in_or_app; right; apply in_or_app; auto).
  assert (IP : forall t, In t P -> in_counts 4 counts t) by (intros; apply Hin; apply in_or_app; right; apply in_or_app; auto).
  exists (map ids_of Q), (map ids_of T), (map ids_of P), rq, rt, rp, tg.
  rewrite <- !map_app, map_length.
  assert (QS : forall t, In t Q -> quad_score flat epi vp sens imgs corrmin (ids_of t) (tcorr t)).
  { intros t Ht. destruct (HQ1 t Ht) as [H| ->].
    - left. eapply quad_good; eauto.
    - right. split; [reflexivity|]. apply blank_leftmost. }
  split. { unfold match_targets, py_correspondences. fold flats imgs'. fold counts. change (Z.to_nat 4) with 4%nat in EM |- *. fold cands. rewrite EM. cbn [bind]. exact Epy. }
  split; [apply shows_ids; auto|]. split; [apply shows_ids; auto|]. split; [apply shows_ids; auto|].
  split. { intros ids H. apply in_map_iff in H as (t & <- & Ht). exists (tcorr t). auto. }
  split. { intros ids H. apply in_map_iff in H as (t & <- & Ht). destruct (HT t Ht) as (tus & _ & X). eapply triplet_good; eauto. }
  split. { intros ids H. apply in_map_iff in H as (t & <- & Ht). destruct (HP t Ht) as (tus & _ & X). eapply pair_good; eauto. }
  split. { intros H. destruct (HF H) as (-> & ->). auto. }
  split.
  { intros i j a b Hij Ha Hb. rewrite nth_error_map in Ha, Hb.
    destruct (nth_error (Q ++ T ++ P) i) as [ta|] eqn:Ea; [|discriminate]. destruct (nth_error (Q ++ T ++ P) j) as [tb|] eqn:Eb; [|discriminate].
    injection Ha as <-. injection Hb as <-. intros S.
    apply share_clash in S; [|apply Hin; eapply nth_error_In; eauto|apply Hin; eapply nth_error_In; eauto].
    exact (Hdis i j ta tb Hij Ea Eb S). }
  split.
  { destruct (C03_one_clique_per_target srt cl counts corrmin flag flats imgs' SRT WF DC CR CO)
      as (con'' & tg'' & q & tt & pp & E'' & q0 & t0 & p0 & _ & CQ).
    rewrite E in E''. injection E'' as <- M1 M2 M3 M4 <-.
    assert (EQ : firstn (Z.to_nat (q + tt + pp)) con = Q ++ T ++ P). { rewrite <- M4, Nat2Z.id. exact Hpre. }
    rewrite EQ in CQ. destruct CQ as (_ & _ & _ & CQ).
    intros a p t Ha Hp Ht. specialize (CQ a p Ha Hp).
    assert (La : (Z.to_nat a < 4)%nat).
    { unfold target_at in Ht. destruct (nth_error imgs (Z.to_nat a)) eqn:X; [|discriminate].
      pose proof (proj1 US) as UL. rewrite <- UL. apply nth_error_Some. congruence. }
    destruct (camx _ La) as (ts & ts' & cs & C). pose proof C as (C1 & C2 & C3 & C4 & C5 & C6 & C7 & _).
    assert (Ht' : target_at imgs' a p = Some (set_pnr t p)).
    { unfold target_at in *. rewrite C1 in Ht. unfold imgs'. rewrite C2. rewrite (C7 _ _ Ht). f_equal. now rewrite Z2Nat.id by lia. }
    rewrite Ht' in CQ.
    assert (IC : forall i ids, nth_error (map ids_of (Q ++ T ++ P)) i = Some ids -> nth_error ids (Z.to_nat a) = Some p ->
                 in_clique 4 (Q ++ T ++ P) flats (Z.of_nat i) a p).
    { intros i ids Hi Hid. rewrite nth_error_map in Hi. destruct (nth_error (Q ++ T ++ P) i) as [tu|] eqn:Etu; [|discriminate].
      injection Hi as <-. pose proof (Hin tu (nth_error_In _ _ Etu)) as ICu.
      destruct (nth_error (tp tu) (Z.to_nat a)) as [k|] eqn:Ek; [|apply nth_error_None in Ek; destruct ICu; lia].
      rewrite (nth_ids tu _ k La Ek) in Hid. injection Hid as Hid. rewrite Z2Nat.id in Hid by lia.
      assert (Hk : 0 <= k). { destruct (Z_lt_le_dec k 0) as [L|L]; auto. rewrite (pn_neg _ _ L) in Hid. lia. }
      pose proof (in_counts_valid tu _ k ICu La Ek Hk) as V. rewrite Z2Nat.id in V by lia.
      destruct (pn_valid a k Ha V) as (u & cs' & c & _ & _ & F & N & PQ & _).
      split; [lia|]. exists tu, k, cs', c. rewrite Nat2Z.id. split; auto. split; [split; [lia|auto]|]. split; auto. split; auto. congruence. }
    destruct CQ as [(i & Hi & IQi & _ & Etg)|(NI & Etg)].
    - left. destruct IQi as (Hi0 & tu & k & row & c & Etu & (_ & Hk & Ek) & F & N & Pc).
      exists (Z.to_nat i), (ids_of tu). split; [rewrite nth_error_map, Etu; reflexivity|]. split.
      + rewrite (nth_ids tu _ k La Ek). rewrite Z2Nat.id by lia. f_equal. unfold pn, Proof_chain.pn. fold flats. rewrite F, N.
        destruct (k <? 0) eqn:X; auto. lia.
      + rewrite Etg. rewrite Z2Nat.id by lia. reflexivity.
    - right. split; [|rewrite Etg; reflexivity]. intros ids Hids Hid. apply In_nth_error in Hids as (i & Hi).
      exact (NI _ (IC i ids Hi Hid)). }
  intros PC H40 HB ids s G.
  destruct (good_is_quad cl HE PC H40 corrmin n0 ids s N0 G) as (t & IQt & <- & <-).
  assert (B : forall l, NoDup l -> (forall t, In t l -> is_quad cl n0 corrmin t) -> Z.of_nat (length l) <= 4 * NMAX).
  { intros l NL Hl. rewrite <- (map_length ids_of). apply HB.
    - apply NoDup_map_on; auto. intros x y Hx Hy. eapply quad_ids_inj; eauto.
    - intros i Hi. apply in_map_iff in Hi as (u & <- & Hu). exists (tcorr u). eapply quad_good; eauto. }
  destruct (HQ2 B t IQt) as [H|(b & Hb & Hcl & Hle)].
  - left. now apply in_map.
  - right. exists (ids_of b), (tcorr b). split; [now apply in_map|]. split; [|split; auto].
    apply share_clash; auto. eapply quad_in_counts; eauto.
Qed.
End Chain.
