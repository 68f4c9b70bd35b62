From Coq Require Import Permutation Sorted.
From Verif Require Import Base F64 Model_corr Spec_corr Proof_corr_take Proof_corr_loops Proof_corr_three Proof_corr_pairs Proof_corr_all.
Local Open Scope Z_scope.

Lemma foldM_ext {S A} (f g : S -> A -> result S) l s :
  (forall s a, In a l -> f s a = g s a) -> foldM f l s = foldM g l s.
Proof.
  revert s; induction l as [|a l IH]; intros s H; simpl; auto.
  rewrite H by (simpl; auto). destruct (g s a); simpl; auto. apply IH. intros; apply H; simpl; auto.
Qed.

Lemma foldM_map {S A B} (f : S -> B -> result S) (h : A -> B) l s :
  foldM f (map h l) s = foldM (fun s a => f s (h a)) l s.
Proof. revert s; induction l as [|a l IH]; intros s; simpl; auto. destruct (f s (h a)); simpl; auto. Qed.

Lemma foldM_prod {S A B} (f : S -> A -> B -> result S) (l1 : list A) (l2 : list B) s :
  foldM (fun s a => foldM (fun s b => f s a b) l2 s) l1 s =
  foldM (fun s ab => f s (fst ab) (snd ab)) (list_prod l1 l2) s.
Proof.
  revert s; induction l1 as [|a l1 IH]; intros s; simpl; auto.
  rewrite foldM_app, foldM_map. simpl. destruct (foldM _ l2 s); simpl; auto.
Qed.

Definition hit (nc : Z) (L : list ntupel) (corrected : list (list coord2d)) (D : list (Z * Z)) (i cam p : Z) : Prop :=
  In (i, cam) D /\ in_clique nc L corrected i cam p.

Definition tnr_state (nc : Z) L corrected targets D tg : Prop :=
  length tg = length targets /\
  forall cam p, 0 <= cam -> 0 <= p ->
    match target_at targets cam p with
    | None => target_at tg cam p = None
    | Some t => (exists i, hit nc L corrected D i cam p /\ target_at tg cam p = Some (set_tnr t i)) \/
                ((forall i, ~ hit nc L corrected D i cam p) /\ target_at tg cam p = Some t)
    end.

Lemma target_at_upd tg cam p row t' c q :
  0 <= cam -> 0 <= p -> 0 <= c -> 0 <= q ->
  nth_error tg (Z.to_nat cam) = Some row -> (Z.to_nat p < length row)%nat ->
  target_at (upd tg (Z.to_nat cam) (upd row (Z.to_nat p) t')) c q =
  if (c =? cam) && (q =? p) then Some t' else target_at tg c q.
Proof.
  intros Hc Hp Hc' Hq Hr Hl. unfold target_at.
  assert (Z.to_nat cam < length tg)%nat by (apply nth_error_Some; congruence).
  destruct (Z.eqb_spec c cam) as [->|Hne]; simpl.
  - rewrite nth_error_upd_eq by auto. rewrite Hr.
    destruct (Z.eqb_spec q p) as [->|Hne].
    + now rewrite nth_error_upd_eq.
    + rewrite nth_error_upd_neq; auto. lia.
  - rewrite nth_error_upd_neq; auto. lia.
Qed.

Lemma assign_ok nc counts L con corrected targets :
  nc <= 4 -> length counts = Z.to_nat nc -> (forall n, In n counts -> n <= NMAX) ->
  firstn (length L) con = L -> (length L <= length con)%nat ->
  (forall c, In c L -> in_counts nc counts c) -> coords_ok nc counts corrected targets ->
  exists tg, assign_tnr nc (Z.of_nat (length L)) con corrected targets = Ok tg /\
    tnr_state nc L corrected targets (list_prod (zrange 0 (Z.of_nat (length L))) (zrange 0 nc)) tg.
Proof.
  intros Hnc Lc HN Hpre Hroom Hin (L1 & L2 & Hco). unfold assign_tnr.
  rewrite foldM_prod.
  set (f := fun (s : list (list target)) (ab : Z * Z) => _).
  destruct (foldM_total (tnr_state nc L corrected targets) f
     (list_prod (zrange 0 (Z.of_nat (length L))) (zrange 0 nc)) targets) as (tg & Htg & Hst); [| |eauto].
  { split; auto. intros cam p Hc Hp. destruct (target_at targets cam p) as [t|]; auto.
    right. split; auto. intros i (H & _). destruct H. }
  intros done [i j] rest tg E (Ltg & Hinv).
  assert (Hij : In (i, j) (list_prod (zrange 0 (Z.of_nat (length L))) (zrange 0 nc)))
    by (rewrite E; apply in_or_app; simpl; auto).
  apply in_prod_iff in Hij as (Hi & Hj). apply In_zrange in Hi, Hj.
  unfold f. cbn [fst snd].
  assert (HnL : exists c, nth_error L (Z.to_nat i) = Some c).
  { destruct (nth_error L (Z.to_nat i)) eqn:En; eauto. apply nth_error_None in En. lia. }
  destruct HnL as (c & Hc).
  assert (Hcon : nth_error con (Z.to_nat i) = Some c).
  { assert (X : nth_error (firstn (length L) con) (Z.to_nat i) = Some c) by (rewrite Hpre; auto).
    rewrite <- (firstn_skipn (length L) con). rewrite nth_error_app1; auto.
    apply nth_error_Some. congruence. }
  rewrite (pyget_nonneg con i c) by (auto; lia). cbn [bind].
  destruct (Hin c) as (Lt & _ & Hk); [eauto using nth_error_In|].
  destruct (pyget_in_range (tp c) j ltac:(lia)) as (q & -> & Hq). cbn [bind].
  assert (Hmem : 0 <= q -> member nc c j q) by (intros; unfold member; repeat split; auto; lia).
  assert (Hnohit : forall D', (forall cam p, 0 <= cam -> 0 <= p -> forall i', hit nc L corrected (D' ++ [(i, j)]) i' cam p ->
      hit nc L corrected D' i' cam p) -> forall tg', tnr_state nc L corrected targets D' tg' ->
      tnr_state nc L corrected targets (D' ++ [(i, j)]) tg').
  { intros D' HD' tg' (T1 & T2). split; auto. intros cam p Hcam Hp. specialize (T2 cam p Hcam Hp).
    destruct (target_at targets cam p) as [t|]; auto.
    destruct T2 as [(i' & (Hh & Hh') & Ht)|(Hno & Ht)].
    - left. exists i'. split; auto. split; auto. apply in_or_app; auto.
    - right. split; auto. intros i' Hh. apply (Hno i'). eapply HD'; eauto. }
  destruct (Z.ltb_spec q 0) as [Hneg|Hpos].
  { exists tg. split; auto. apply Hnohit; [|split; auto].
    intros cam p _ _ i' (Hh & Hcl). apply in_app_or in Hh as [Hh|[Hh|[]]]; [split; auto|].
    inversion Hh; subst. exfalso. destruct Hcl as (_ & t & k & row & cc & A1 & (_ & A2 & A3) & _).
    rewrite Hc in A1. inversion A1; subst t. rewrite Hq in A3. inversion A3. lia. }
  specialize (Hmem Hpos). destruct (Hk j q Hmem) as (n & Hn & Hqn).
  destruct (nth_error corrected (Z.to_nat j)) as [cs|] eqn:Ecs.
  2:{ apply nth_error_None in Ecs. lia. }
  destruct (nth_error targets (Z.to_nat j)) as [ts|] eqn:Ets.
  2:{ apply nth_error_None in Ets. lia. }
  destruct (Hco _ _ _ _ Hn Ecs Ets) as (K1 & K2 & K3 & K4).
  rewrite (pyget_nonneg corrected j cs) by (auto; lia). cbn [bind].
  destruct (pyget_in_range cs q ltac:(lia)) as (crd & -> & Hcrd). cbn [bind].
  assert (Hp : 0 <= c_pnr crd < n) by (apply K3; eauto using nth_error_In).
  assert (n <= NMAX) by (apply HN; eauto using nth_error_In).
  set (p1 := c_pnr crd) in *.
  destruct (Z.ltb_spec (-1) p1); [|lia]. destruct (Z.ltb_spec p1 1202590843); [|unfold NMAX in *; lia].
  cbn [andb].
  assert (Hrow : exists row, nth_error tg (Z.to_nat j) = Some row /\ exists t, nth_error row (Z.to_nat p1) = Some t).
  { pose proof (Hinv j p1 ltac:(lia) ltac:(lia)) as HI. unfold target_at in HI at 1.
    rewrite Ets in HI. destruct (nth_error ts (Z.to_nat p1)) as [t|] eqn:Et.
    2:{ apply nth_error_None in Et. lia. }
    assert (HX : exists t', target_at tg j p1 = Some t') by (destruct HI as [(? & _ & ?)|(_ & ?)]; eauto).
    destruct HX as (t' & HX). unfold target_at in HX.
    destruct (nth_error tg (Z.to_nat j)) as [row|]; [|discriminate]. eauto. }
  destruct Hrow as (row & Hrow & t & Ht).
  rewrite (pyget_nonneg tg j row) by (auto; lia). cbn [bind].
  rewrite (pyget_nonneg row p1 t) by (auto; lia). cbn [bind].
  assert (Z.to_nat p1 < length row)%nat by (apply nth_error_Some; congruence).
  assert (Z.to_nat j < length tg)%nat by (apply nth_error_Some; congruence).
  rewrite pyset_in_range by lia. cbn [bind]. rewrite pyset_in_range by lia.
  eexists. split; [reflexivity|]. split; [now rewrite upd_length|].
  intros cam p Hcam Hpp.
  rewrite target_at_upd by (auto; lia).
  assert (Hclq : in_clique nc L corrected i j p1).
  { split; [lia|]. exists c, q, cs, crd. auto. }
  assert (Hhit : hit nc L corrected (done ++ [(i, j)]) i j p1).
  { split; auto. apply in_or_app; simpl; auto. }
  pose proof (Hinv cam p Hcam Hpp) as HI.
  destruct (Z.eqb_spec cam j) as [->|Hne]; destruct (Z.eqb_spec p p1) as [->|Hnp]; cbn [andb].
  - assert (Ett : target_at tg j p1 = Some t) by (unfold target_at; now rewrite Hrow).
    destruct (target_at targets j p1) as [t0|] eqn:E0; [|congruence].
    left. exists i. split; auto. rewrite Ett in HI.
    destruct HI as [(i' & _ & HI)|(_ & HI)]; inversion HI; subst; reflexivity.
  - assert (HA : forall i', hit nc L corrected (done ++ [(i, j)]) i' j p -> hit nc L corrected done i' j p).
    { intros i' (Hh & Hcl). apply in_app_or in Hh as [Hh|[Hh|[]]]; [split; auto|].
      inversion Hh; subst i'. exfalso. destruct Hcl as (_ & t' & k & row' & cc & A1 & (_ & A2 & A3) & A4 & A5 & A6).
      rewrite Hc in A1. inversion A1; subst t'. rewrite Hq in A3. inversion A3; subst k.
      rewrite Ecs in A4; inversion A4; subst row'. rewrite Hcrd in A5; inversion A5; subst cc. auto. }
    destruct (target_at targets j p) as [t0|]; auto.
    destruct HI as [(i' & (Hh & Hh') & HI)|(Hno & HI)].
    + left. exists i'. split; auto. split; auto. apply in_or_app; auto.
    + right. split; auto. intros i' Hh. apply (Hno i'); auto.
  - assert (HA : forall i', hit nc L corrected (done ++ [(i, j)]) i' cam p1 -> hit nc L corrected done i' cam p1).
    { intros i' (Hh & Hcl). apply in_app_or in Hh as [Hh|[Hh|[]]]; [split; auto|]. inversion Hh; subst. lia. }
    destruct (target_at targets cam p1) as [t0|]; auto.
    destruct HI as [(i' & (Hh & Hh') & HI)|(Hno & HI)].
    + left. exists i'. split; auto. split; auto. apply in_or_app; auto.
    + right. split; auto. intros i' Hh. apply (Hno i'); auto.
  - assert (HA : forall i', hit nc L corrected (done ++ [(i, j)]) i' cam p -> hit nc L corrected done i' cam p).
    { intros i' (Hh & Hcl). apply in_app_or in Hh as [Hh|[Hh|[]]]; [split; auto|]. inversion Hh; subst. lia. }
    destruct (target_at targets cam p) as [t0|]; auto.
    destruct HI as [(i' & (Hh & Hh') & HI)|(Hno & HI)].
    + left. exists i'. split; auto. split; auto. apply in_or_app; auto.
    + right. split; auto. intros i' Hh. apply (Hno i'); auto.
Qed.

(** with disjoint cliques the clique number of a target is unique *)
Lemma in_clique_unique nc counts L corrected targets i j cam p :
  length counts = Z.to_nat nc ->
  disjoint_cliques nc L -> coords_ok nc counts corrected targets ->
  in_clique nc L corrected i cam p -> in_clique nc L corrected j cam p -> i = j.
Proof.
  intros Lc HD (L1 & L2 & Hco) (Hi & t & k & row & c & A1 & A2 & A3 & A4 & A5)
     (Hj & t' & k' & row' & c' & B1 & B2 & B3 & B4 & B5).
  rewrite A3 in B3; inversion B3; subst row'.
  assert (Hcam : 0 <= cam < nc) by apply A2.
  destruct (nth_error counts (Z.to_nat cam)) as [n|] eqn:En.
  2:{ apply nth_error_None in En. lia. }
  destruct (nth_error targets (Z.to_nat cam)) as [ts|] eqn:Ets.
  2:{ apply nth_error_None in Ets. lia. }
  destruct (Hco _ _ _ _ En A3 Ets) as (_ & _ & _ & ND).
  assert (Z.to_nat k = Z.to_nat k').
  { rewrite NoDup_nth_error in ND. apply ND.
    - rewrite map_length. apply nth_error_Some. congruence.
    - rewrite !nth_error_map, A4, B4. simpl. congruence. }
  assert (k = k') by (destruct A2 as (_ & ? & _), B2 as (_ & ? & _); lia). subst k'.
  destruct (Nat.eq_dec (Z.to_nat i) (Z.to_nat j)) as [E|E]; [lia|].
  exfalso. eapply (HD _ _ t t' E); eauto. exists cam, k; auto.
Qed.

Lemma init_inv nc : 1 <= nc <= 4 ->
  inv nc (repeat blank (Z.to_nat (NMAX * nc)), repeat blank (Z.to_nat (NMAX * nc)),
          repeat (repeat 0 (Z.to_nat NMAX)) (Z.to_nat nc), [0; 0; 0; 0]) [].
Proof.
  intros Hnc. constructor; cbn [fst snd].
  - apply repeat_length.
  - intros t Ht. apply repeat_spec in Ht. now subst.
  - apply repeat_length.
  - reflexivity.
  - cbn [length]. lia.
  - intros row u Hr Hu. apply repeat_spec in Hr. subst. apply repeat_spec in Hu. lia.
  - split; [apply repeat_length|]. intros row Hr. apply repeat_spec in Hr. subst. apply repeat_length.
  - intros cam k. split; [|intros (a & [] & _)].
    intros (_ & _ & row & u & R1 & R2 & R3). apply nth_error_In in R1. apply repeat_spec in R1. subst.
    apply nth_error_In in R2. apply repeat_spec in R2. lia.
  - intros c [].
  - intros [|i] j a b _ H; discriminate.
  - split; reflexivity.
Qed.

Lemma blank_in_counts nc counts : 1 <= nc <= 4 -> length counts = Z.to_nat nc -> (forall n, In n counts -> 1 <= n) ->
  in_counts nc counts blank.
Proof.
  intros Hnc Lc H1. split; [reflexivity|]. split.
  - exists 0, 0. unfold member. simpl. repeat split; auto; lia.
  - intros cam k (Hc & Hk & Hn).
    assert (k = 0).
    { assert (C : cam = 0 \/ cam = 1 \/ cam = 2 \/ cam = 3) by lia.
      destruct C as [->|[->|[->| ->]]]; simpl in Hn; congruence. }
    subst. destruct (nth_error counts (Z.to_nat cam)) as [n|] eqn:En.
    + exists n. split; auto. apply nth_error_In in En. specialize (H1 _ En). lia.
    + apply nth_error_None in En. lia.
Qed.

Lemma inv_table nc counts st L : (forall n, In n counts -> n <= NMAX) -> inv nc st L -> table_ok nc counts (snd (fst st)).
Proof. intros HN I. destruct (i_dims _ _ _ I) as (D1 & D2). split; auto. Qed.

(** summary of one run with four cameras *)
Lemma corr4_phase1 srt cl counts corrmin n0 :
  sorts srt -> wf_adj 4 counts cl -> distinct_cands cl -> (forall n, In n counts -> 0 <= n <= NMAX) ->
  nth_error counts 0 = Some n0 ->
  exists con0' con' tim' Q sc n,
    four_camera_matching cl n0 corrmin (repeat blank (Z.to_nat (NMAX * 4))) (4 * NMAX) = Ok (sc, n) /\
    phase srt 0 4 (sc, n) (repeat blank (Z.to_nat (NMAX * 4)), repeat blank (Z.to_nat (NMAX * 4)),
          repeat (repeat 0 (Z.to_nat NMAX)) (Z.to_nat 4), [0; 0; 0; 0]) =
      Ok (con0', con', tim', [Z.of_nat (length Q); 0; 0; Z.of_nat (length Q)]) /\
    inv 4 (con0', con', tim', [Z.of_nat (length Q); 0; 0; Z.of_nat (length Q)]) Q /\
    (forall c, In c con0' -> blocked 4 tim' c) /\ descending Q /\
    (forall c, In c Q -> is_quad cl n0 corrmin c \/ c = blank) /\
    ((forall l, NoDup l -> (forall t, In t l -> is_quad cl n0 corrmin t) -> Z.of_nat (length l) < 4 * NMAX) ->
       In blank Q \/ exists b, In b Q /\ clash 4 blank b /\ np_le fzero (tcorr b) = true) /\
    ((forall l, NoDup l -> (forall t, In t l -> is_quad cl n0 corrmin t) -> Z.of_nat (length l) <= 4 * NMAX) ->
       forall t, is_quad cl n0 corrmin t -> In t Q \/
        exists b, In b Q /\ clash 4 t b /\ np_le (tcorr t) (tcorr b) = true) /\
    (forall c, In c con0' -> is_quad cl n0 corrmin c \/ c = blank).
Proof.
  intros Hs W HD HN N0.
  assert (HN' : forall n, In n counts -> n <= NMAX) by (intros n Hn; destruct (HN n Hn); lia).
  pose proof (init_inv 4 ltac:(lia)) as I0.
  assert (Lsc : length (repeat blank (Z.to_nat (NMAX * 4))) = Z.to_nat (NMAX * 4)) by apply repeat_length.
  destruct (four_exact cl counts n0 corrmin (repeat blank (Z.to_nat (NMAX * 4))) (4 * NMAX) W N0
    (i_sc _ _ _ I0)) as (found & F1 & F2 & F3).
  { rewrite Lsc. unfold NMAX. lia. }
  specialize (F2 HD).
  set (w := firstn (Z.to_nat (4 * NMAX)) found) in *.
  assert (Lw : (length w <= length (repeat blank (Z.to_nat (NMAX * 4))))%nat).
  { rewrite Lsc. unfold w. rewrite firstn_length. unfold NMAX in *. lia. }
  assert (Hsc : forall c, In c (overwrite (repeat blank (Z.to_nat (NMAX * 4))) w) -> is_quad cl n0 corrmin c \/ c = blank).
  { intros c Hc. apply overwrite_In in Hc as [Hc|Hc].
    - left. apply F1. eapply firstn_In; eauto.
    - right. eapply repeat_spec; eauto. }
  assert (Hfit : forall c, In c (overwrite (repeat blank (Z.to_nat (NMAX * 4))) w) ->
      length (tp c) = 4%nat /\ has_member 4 c /\ fits 4 c).
  { intros c Hc. destruct (Hsc c Hc) as [Hq| ->].
    - pose proof (quad_in_counts _ _ _ _ _ W N0 Hq) as Hic. split; [apply Hic|].
      apply (in_counts_fits 4 counts); auto; lia.
    - split; [reflexivity|]. split; [exists 0, 0; unfold member; simpl; repeat split; auto; lia|].
      split; [simpl; lia|]. intros cam k (Hc' & Hk & Hn).
      assert (C : cam = 0 \/ cam = 1 \/ cam = 2 \/ cam = 3) by lia.
      destruct C as [->|[->|[->| ->]]]; simpl in Hn; inversion Hn; unfold NMAX; lia. }
  destruct (phase_ok srt 0 4 (overwrite (repeat blank (Z.to_nat (NMAX * 4))) w) (Z.of_nat (length w))
     _ _ _ _ [] Hs ltac:(lia) ltac:(lia) I0) as (con0' & con' & tim' & Q & P1 & P2 & P3 & P4 & P5 & P6 & P7); auto.
  { rewrite overwrite_len; auto. }
  { intros t Ht. apply Hfit; auto. }
  { intros c Hc. apply Hfit; auto. }
  change (Z.to_nat 0) with O in *. cbn [upd app] in *.
  exists con0', con', tim', Q, (overwrite (repeat blank (Z.to_nat (NMAX * 4))) w), (Z.of_nat (length w)).
  split; [exact F3|]. split; [exact P1|]. split; [exact P2|]. split; [exact P5|]. split; [exact P6|].
  assert (Hnb : forall c, ~ blocked 4 (repeat (repeat 0 (Z.to_nat NMAX)) (Z.to_nat 4)) c).
  { intros c (cam & k & _ & Hu). apply (i_used _ _ _ I0) in Hu as (a & [] & _). }
  assert (Hw : forall t, In t w \/ t = blank /\ (length w < Z.to_nat (4 * NMAX))%nat -> In t Q \/
        exists b, In b Q /\ clash 4 t b /\ np_le (tcorr t) (tcorr b) = true).
  { intros t Ht. assert (Hin : In t (overwrite (repeat blank (Z.to_nat (NMAX * 4))) w)).
    { unfold overwrite. apply in_or_app. destruct Ht as [?|(-> & Hl)]; [auto|]. right.
      destruct (skipn (length w) (repeat blank (Z.to_nat (NMAX * 4)))) as [|x l] eqn:Ek.
      - apply (f_equal (@length ntupel)) in Ek. rewrite skipn_length, Lsc in Ek.
        cbn [length] in Ek. unfold NMAX in *. lia.
      - assert (In x (repeat blank (Z.to_nat (NMAX * 4)))) by (eapply skipn_In; rewrite Ek; simpl; auto).
        apply repeat_spec in H. subst. simpl; auto. }
    destruct (P7 _ Hin) as [?|[Hb|?]]; auto. exfalso. eapply Hnb; eauto. }
  split; [intros c Hc; apply Hsc; apply P4; auto|].
  split; [|split].
  - intros Hbound. apply (Hw blank). right. split; auto.
    specialize (Hbound found F2 (fun t => proj1 (F1 t))). unfold w. rewrite firstn_length. lia.
  - intros Hbound t Ht. apply Hw. left. unfold w. apply F1 in Ht.
    rewrite firstn_all2; auto. specialize (Hbound found F2 (fun t => proj1 (F1 t))). lia.
  - intros c Hc. apply Hsc. eapply Permutation_in; eauto.
Qed.

(** candidates depend on the marks only through [used], and name no used target *)
Lemma triplet_ext tus tus' nc cl counts accept t : (forall cam k, used tus cam k <-> used tus' cam k) ->
  is_triplet_padded cl nc counts tus accept t -> is_triplet_padded cl nc counts tus' accept t.
Proof.
  intros H (i1 & i2 & i3 & n1 & p1 & p2 & p3 & x12 & d12 & x13 & d13 & x23 & d23 & A1 & A2 & A3 & A4 & A5 & A6 & A7 & A8 & A9 & A10).
  rewrite H in A7. rewrite H in A8. rewrite H in A9. exists i1, i2, i3, n1, p1, p2, p3, x12, d12, x13, d13, x23, d23. auto 20.
Qed.
Lemma pair_ext tus tus' nc cl counts accept t : (forall cam k, used tus cam k <-> used tus' cam k) ->
  is_pair cl nc counts tus accept t -> is_pair cl nc counts tus' accept t.
Proof.
  intros H (i1 & i2 & n1 & p1 & p2 & x & d & A1 & A2 & A3 & A4 & A5 & A7 & A8 & A10).
  rewrite H in A7. rewrite H in A8. exists i1, i2, n1, p1, p2, x, d. auto 20.
Qed.
Lemma triplet_free cl counts tus accept t : is_triplet_padded cl 4 counts tus accept t -> blocked 4 tus t -> False.
Proof.
  intros (i1 & i2 & i3 & n1 & p1 & p2 & p3 & x12 & d12 & x13 & d13 & x23 & d23 & A1 & A2 & A3 & A4 & A5 & A6 & A7 & A8 & A9 & _ & _ & _ & E & _) (cam & k & Hm & Hu).
  destruct (slots_member 4 _ t cam k ltac:(lia) E Hm) as [[= <- <-]|[[= <- <-]|[[= <- <-]|[]]]]; auto.
Qed.
Lemma pair_free nc cl counts tus accept t : nc <= 4 -> is_pair cl nc counts tus accept t -> blocked nc tus t -> False.
Proof.
  intros Hnc (i1 & i2 & n1 & p1 & p2 & x & d & A1 & A2 & A3 & A4 & A5 & A7 & A8 & _ & _ & E & _) (cam & k & Hm & Hu).
  destruct (slots_member nc _ t cam k Hnc E Hm) as [[= <- <-]|[[= <- <-]|[]]]; auto.
Qed.

(** everything up to the assignment of the correspondence numbers; cameras may be empty *)
Definition fits4 (c : ntupel) : Prop := length (tp c) = 4%nat /\ has_member 4 c /\ fits 4 c.

Lemma corr4_phases srt cl counts corrmin flag :
  sorts srt -> wf_adj 4 counts cl -> distinct_cands cl ->
  (forall n, In n counts -> 0 <= n <= NMAX) ->
  exists con Q T P,
    (forall corrected targets,
    correspondences_from srt NMAX cl counts corrmin 4 flag corrected targets [0; 0; 0; 0] =
      do tg <- assign_tnr 4 (Z.of_nat (length (Q ++ T ++ P))) con corrected targets;
      Ok (con, [Z.of_nat (length Q); Z.of_nat (length T); Z.of_nat (length P); Z.of_nat (length (Q ++ T ++ P))], tg)) /\
    firstn (length (Q ++ T ++ P)) con = Q ++ T ++ P /\
    (length (Q ++ T ++ P) <= length con)%nat /\
    disjoint_cliques 4 (Q ++ T ++ P) /\
    (forall c, In c (Q ++ T ++ P) -> c = blank \/ in_counts 4 counts c) /\
    descending Q /\ descending T /\ descending P /\
    (forall n0, nth_error counts 0 = Some n0 ->
      (forall t, In t Q -> is_quad cl n0 corrmin t \/ t = blank) /\
      ((forall l, NoDup l -> (forall t, In t l -> is_quad cl n0 corrmin t) -> Z.of_nat (length l) < 4 * NMAX) ->
       In blank Q \/ exists b, In b Q /\ clash 4 blank b /\ np_le fzero (tcorr b) = true) /\
      ((forall l, NoDup l -> (forall t, In t l -> is_quad cl n0 corrmin t) -> Z.of_nat (length l) <= 4 * NMAX) ->
       forall t, is_quad cl n0 corrmin t -> In t Q \/
        exists b, In b Q /\ clash 4 t b /\ np_le (tcorr t) (tcorr b) = true)) /\
    (forall t, In t T -> exists tus, (forall cam k, used tus cam k <-> exists a, In a Q /\ member 4 a cam k) /\
        is_triplet_padded cl 4 counts tus corrmin t) /\
    (forall t, In t P -> exists tus, (forall cam k, used tus cam k <-> exists a, In a (Q ++ T) /\ member 4 a cam k) /\
        is_pair cl 4 counts tus corrmin t) /\
    (flag <> 0 -> T = [] /\ P = []) /\
    (flag = 0 -> forall tus, (forall cam k, used tus cam k <-> exists a, In a Q /\ member 4 a cam k) ->
      (forall l, NoDup l -> (forall t, In t l -> is_triplet_padded cl 4 counts tus corrmin t) -> Z.of_nat (length l) <= 4 * NMAX) ->
      forall t, is_triplet_padded cl 4 counts tus corrmin t -> In t T \/
        exists b, In b T /\ clash 4 t b /\ np_le (tcorr t) (tcorr b) = true) /\
    (flag = 0 -> forall tus, (forall cam k, used tus cam k <-> exists a, In a (Q ++ T) /\ member 4 a cam k) ->
      (forall l, NoDup l -> (forall t, In t l -> is_pair cl 4 counts tus corrmin t) -> Z.of_nat (length l) <= 4 * NMAX) ->
      forall t, is_pair cl 4 counts tus corrmin t -> In t P \/
        exists b, In b P /\ clash 4 t b /\ np_le (tcorr t) (tcorr b) = true).
Proof.
  intros Hs W HD HN.
  assert (HN' : forall n, In n counts -> n <= NMAX) by (intros n Hn; destruct (HN n Hn); lia).
  assert (Lc : length counts = Z.to_nat 4) by apply W.
  destruct (counts4 counts Lc) as (n0 & n1 & n2 & n3 & Ecounts).
  assert (N0 : nth_error counts 0 = Some n0) by (rewrite Ecounts; reflexivity).
  destruct (corr4_phase1 srt cl counts corrmin n0 Hs W HD ltac:(intros n Hn; specialize (HN n Hn); lia) N0)
    as (con1 & con' & tim' & Q & sc & n & F3 & P1 & I1 & B1 & D1 & Q1 & QB & Q2 & S1).
  assert (Hbi : fits4 blank).
  { split; [reflexivity|]. split; [exists 0, 0; split; [lia|]; split; [lia|reflexivity]|].
    split; [simpl; lia|]. intros cam k (_ & _ & Hn).
    assert (In k (tp blank)) by eauto using nth_error_In. simpl in H. unfold NMAX. intuition lia. }
  assert (Hif : forall c, in_counts 4 counts c -> fits4 c).
  { intros c Hc. split; [apply Hc|]. split; [apply Hc|]. apply (in_counts_fits 4 counts); auto; lia. }
  assert (HQ' : forall c, is_quad cl n0 corrmin c \/ c = blank -> c = blank \/ in_counts 4 counts c).
  { intros c [Hq| ->]; auto. right. eapply quad_in_counts; eauto. }
  assert (HQ : forall c, is_quad cl n0 corrmin c \/ c = blank -> fits4 c).
  { intros c Hc. destruct (HQ' c Hc) as [-> |?]; auto. }
  assert (HQn : forall n0', nth_error counts 0 = Some n0' ->
      (forall t, In t Q -> is_quad cl n0' corrmin t \/ t = blank) /\
      ((forall l, NoDup l -> (forall t, In t l -> is_quad cl n0' corrmin t) -> Z.of_nat (length l) < 4 * NMAX) ->
       In blank Q \/ exists b, In b Q /\ clash 4 blank b /\ np_le fzero (tcorr b) = true) /\
      ((forall l, NoDup l -> (forall t, In t l -> is_quad cl n0' corrmin t) -> Z.of_nat (length l) <= 4 * NMAX) ->
       forall t, is_quad cl n0' corrmin t -> In t Q \/
        exists b, In b Q /\ clash 4 t b /\ np_le (tcorr t) (tcorr b) = true)).
  { intros n0' H. rewrite N0 in H. inversion H; subst n0'. auto. }
  assert (Hdn : descending []) by (intros [|i] j a b _ H; discriminate).
  destruct (Z.eqb_spec flag 0) as [Hf|Hf]; cbn [orb].
  2:{ (* all_cam_flag set: only quadruplets *)
      assert (EQ : Q ++ [] ++ [] = Q) by (rewrite app_nil_r; reflexivity).
      exists con', Q, [], []. rewrite EQ.
      split.
      { intros corrected targets.
        unfold correspondences_from.
  rewrite (eq_refl : (4 =? 4) = true). cbn [orb andb].
  change {| tp := repeat 0 4; tcorr := fzero |} with blank.
  assert (E0 : pyget counts 0 = Ok n0) by (rewrite Ecounts; reflexivity).
  rewrite E0. cbn [bind]. rewrite F3. cbn [bind]. rewrite P1. cbn [bind].
        rewrite (proj2 (Z.eqb_neq flag 0) Hf). cbn [orb].
        rewrite (eq_refl : (4 =? 3) = false). rewrite (eq_refl : (1 <? 4) = true). cbn [andb bind].
        reflexivity. }
      split; [apply (i_pre _ _ _ I1)|].
      split. { pose proof (i_con _ _ _ I1) as X. cbn [fst snd] in X. rewrite X. apply (i_room _ _ _ I1). }
      split; [apply (i_disj _ _ _ I1)|]. split; [intros; apply HQ'; auto|].
      split; auto. split; auto. split; auto. split; auto.
      split; [intros t []|]. split; [intros t []|]. split; [auto|]. split; intros; contradiction. }
  pose proof (inv_table 4 counts _ _ HN' I1) as T1. cbn [fst snd] in T1.
  assert (HL1 : Z.of_nat (length con1) = 4 * NMAX).
  { pose proof (i_con0 _ _ _ I1) as X. cbn [fst snd] in X. rewrite X. unfold NMAX. lia. }
  (* triplets *)
  destruct (three_exact cl counts corrmin con1 (4 * NMAX) tim' W HD T1 (i_sc _ _ _ I1)) as (found & G1 & GN & G3).
  { rewrite HL1. unfold NMAX. lia. }
  set (w := firstn (Z.to_nat (4 * NMAX)) found) in *.
  assert (Lw : (length w <= length con1)%nat) by (unfold w; rewrite firstn_length; lia).
  assert (Hsc : forall c, In c (overwrite con1 w) ->
     is_triplet_padded cl 4 counts tim' corrmin c \/ (In c con1 /\ blocked 4 tim' c)).
  { intros c Hc. apply overwrite_In in Hc as [Hc|Hc]; auto. left. apply G1. eapply firstn_In; eauto. }
  assert (Hic : forall c, In c (overwrite con1 w) -> fits4 c).
  { intros c Hc. destruct (Hsc c Hc) as [Ht|(Hin & _)]; [apply Hif; eapply triplet_in_counts; eauto|].
    apply HQ. apply S1; auto. }
  destruct (phase_ok srt 1 4 (overwrite con1 w) (Z.of_nat (length w)) con1 con' tim' _ Q Hs ltac:(lia) ltac:(lia) I1)
    as (con2 & con'' & tim'' & T & R1 & R2 & R3 & R4 & R5 & R6 & R7); auto; try lia.
  { rewrite overwrite_len by auto. pose proof (i_con0 _ _ _ I1) as X. cbn [fst snd] in X. exact X. }
  { intros t Ht. apply Hic; auto. }
  { intros c Hc. apply Hic; auto. }
  change (Z.to_nat 1) with 1%nat in *. cbn [upd] in R1, R2.
  (* pairs *)
  pose proof (inv_table 4 counts _ _ HN' R2) as T2. cbn [fst snd] in T2.
  assert (HL2 : Z.of_nat (length con2) = 4 * NMAX).
  { pose proof (i_con0 _ _ _ R2) as X. cbn [fst snd] in X. rewrite X. unfold NMAX. lia. }
  destruct (pair_exact 4 cl counts corrmin con2 (4 * NMAX) tim'' ltac:(lia) W T2 (i_sc _ _ _ R2)) as (found2 & H1 & HN2 & H3).
  { rewrite HL2. unfold NMAX. lia. }
  set (w2 := firstn (Z.to_nat (4 * NMAX)) found2) in *.
  assert (Lw2 : (length w2 <= length con2)%nat) by (unfold w2; rewrite firstn_length; lia).
  change (Z.to_nat 4) with 4%nat in H3.
  assert (Hw2 : forall t, In t w2 -> is_pair cl 4 counts tim'' corrmin t)
    by (intros t Ht; apply H1; eapply firstn_In; eauto).
  assert (Hw2c : forall t, In t w2 -> in_counts 4 counts t)
    by (intros t Ht; eapply (pair_in_counts 4); eauto; lia).
  assert (ENC : overwrite_nc 4 con2 w2 = overwrite con2 w2)
    by (apply overwrite_nc4; auto; [apply (i_sc _ _ _ R2)|intros t Ht; apply Hw2c; auto]).
  assert (Hic2 : forall c, In c con2 -> fits4 c).
  { intros c Hc. apply Hic. eapply Permutation_in; eauto. }
  destruct (phase_ok srt 2 4 (overwrite con2 w2) (Z.of_nat (length w2)) con2 con'' tim'' _ (Q ++ T) Hs ltac:(lia) ltac:(lia) R2)
    as (con3 & con''' & tim''' & P & U1 & U2 & U3 & U4 & U5 & U6 & U7); auto; try lia.
  { rewrite overwrite_len by auto. pose proof (i_con0 _ _ _ R2) as X. cbn [fst snd] in X. exact X. }
  { intros t Ht. apply overwrite_In in Ht as [Ht|Ht]; [apply Hw2c; auto|apply Hic2; auto]. }
  { intros c Hc. apply overwrite_In in Hc as [Hc|Hc]; [apply Hif; auto|apply Hic2; auto]. }
  change (Z.to_nat 2) with 2%nat in *. cbn [upd] in U1, U2.
  rewrite <- app_assoc in U1, U2.
  assert (HT : forall c, In c T -> is_triplet_padded cl 4 counts tim' corrmin c).
  { intros c Hc. destruct (R4 c Hc) as (Hin & Hnb). destruct (Hsc c Hin) as [?|(_ & ?)]; tauto. }
  assert (HP : forall c, In c P -> is_pair cl 4 counts tim'' corrmin c).
  { intros c Hc. destruct (U4 c Hc) as (Hin & Hnb). apply overwrite_In in Hin as [?|Hin]; [auto|].
    exfalso. apply Hnb. apply R5; auto. }
  assert (Hall : forall c, In c (Q ++ T ++ P) -> c = blank \/ in_counts 4 counts c).
  { intros c Hc. apply in_app_or in Hc as [Hc|Hc]; [auto|]. right. apply in_app_or in Hc as [Hc|Hc].
    - eapply triplet_in_counts; eauto.
    - eapply (pair_in_counts 4); eauto; lia. }
  exists con''', Q, T, P.
  split.
  { intros corrected targets.
    unfold correspondences_from.
  rewrite (eq_refl : (4 =? 4) = true). cbn [orb andb].
  change {| tp := repeat 0 4; tcorr := fzero |} with blank.
  assert (E0 : pyget counts 0 = Ok n0) by (rewrite Ecounts; reflexivity).
  rewrite E0. cbn [bind]. rewrite F3. cbn [bind]. rewrite P1. cbn [bind].
    rewrite (proj2 (Z.eqb_eq flag 0) Hf). cbn [orb].
    rewrite (eq_refl : (1 <? 4) = true). cbn [andb].
    rewrite G3. cbn [bind]. rewrite R1. cbn [bind]. rewrite H3. cbn [bind].
    change (Z.to_nat 4) with 4%nat. rewrite ENC. rewrite U1. cbn [bind].
    reflexivity. }
  split; [apply (i_pre _ _ _ U2)|].
  split. { pose proof (i_con _ _ _ U2) as X. cbn [fst snd] in X. rewrite X. apply (i_room _ _ _ U2). }
  split; [apply (i_disj _ _ _ U2)|]. split; auto.
  split; auto. split; auto. split; auto. split; auto.
  split. { intros t Ht. exists tim'. split; [apply (i_used _ _ _ I1)|auto]. }
  split. { intros t Ht. exists tim''. split; [apply (i_used _ _ _ R2)|auto]. }
  split; [intros; contradiction|]. split.
  - intros _ tus HU Hcap t Ht. assert (HUe : forall cam k, used tus cam k <-> used tim' cam k) by (intros; rewrite HU; symmetry; apply (i_used _ _ _ I1)).
    assert (Ht' : In t w). { unfold w. rewrite firstn_all2; [apply G1; now apply (triplet_ext tus)|].
      assert (Z.of_nat (length found) <= 4 * NMAX); [|lia]. apply Hcap; [exact GN|]. intros u Hu. apply (triplet_ext tim'); [intros; symmetry; apply HUe|now apply G1]. }
    destruct (R7 t ltac:(unfold overwrite; apply in_or_app; auto)) as [?|[Hb|?]]; auto. exfalso. apply (triplet_ext tus tim' _ _ _ _ _ HUe) in Ht. eapply triplet_free; eauto.
  - intros _ tus HU Hcap t Ht. assert (HUe : forall cam k, used tus cam k <-> used tim'' cam k) by (intros; rewrite HU; symmetry; apply (i_used _ _ _ R2)).
    assert (Ht' : In t w2). { unfold w2. rewrite firstn_all2; [apply H1; now apply (pair_ext tus)|].
      assert (Z.of_nat (length found2) <= 4 * NMAX); [|lia]. apply Hcap; [exact HN2|]. intros u Hu. apply (pair_ext tim''); [intros; symmetry; apply HUe|now apply H1]. }
    destruct (U7 t ltac:(unfold overwrite; apply in_or_app; auto)) as [?|[Hb|?]]; auto. exfalso. apply (pair_ext tus tim'' _ _ _ _ _ HUe) in Ht. eapply pair_free; eauto. lia.
Qed.

Lemma corr4_main srt cl counts corrmin flag corrected targets :
  sorts srt -> wf_adj 4 counts cl -> distinct_cands cl ->
  (forall n, In n counts -> 1 <= n <= NMAX) ->
  coords_ok 4 counts corrected targets ->
  exists con tg Q T P,
    correspondences_from srt NMAX cl counts corrmin 4 flag corrected targets [0; 0; 0; 0] =
      Ok (con, [Z.of_nat (length Q); Z.of_nat (length T); Z.of_nat (length P); Z.of_nat (length (Q ++ T ++ P))], tg) /\
    firstn (length (Q ++ T ++ P)) con = Q ++ T ++ P /\
    (length (Q ++ T ++ P) <= length con)%nat /\
    disjoint_cliques 4 (Q ++ T ++ P) /\
    (forall c, In c (Q ++ T ++ P) -> in_counts 4 counts c) /\
    descending Q /\ descending T /\ descending P /\
    (forall n0, nth_error counts 0 = Some n0 ->
      (forall t, In t Q -> is_quad cl n0 corrmin t \/ t = blank) /\
      ((forall l, NoDup l -> (forall t, In t l -> is_quad cl n0 corrmin t) -> Z.of_nat (length l) <= 4 * NMAX) ->
       forall t, is_quad cl n0 corrmin t -> In t Q \/
        exists b, In b Q /\ clash 4 t b /\ np_le (tcorr t) (tcorr b) = true)) /\
    (forall t, In t T -> exists tus, (forall cam k, used tus cam k <-> exists a, In a Q /\ member 4 a cam k) /\
        is_triplet_padded cl 4 counts tus corrmin t) /\
    (forall t, In t P -> exists tus, (forall cam k, used tus cam k <-> exists a, In a (Q ++ T) /\ member 4 a cam k) /\
        is_pair cl 4 counts tus corrmin t) /\
    (flag <> 0 -> T = [] /\ P = []) /\
    (flag = 0 -> forall tus, (forall cam k, used tus cam k <-> exists a, In a Q /\ member 4 a cam k) ->
      (forall l, NoDup l -> (forall t, In t l -> is_triplet_padded cl 4 counts tus corrmin t) -> Z.of_nat (length l) <= 4 * NMAX) ->
      forall t, is_triplet_padded cl 4 counts tus corrmin t -> In t T \/
        exists b, In b T /\ clash 4 t b /\ np_le (tcorr t) (tcorr b) = true) /\
    (flag = 0 -> forall tus, (forall cam k, used tus cam k <-> exists a, In a (Q ++ T) /\ member 4 a cam k) ->
      (forall l, NoDup l -> (forall t, In t l -> is_pair cl 4 counts tus corrmin t) -> Z.of_nat (length l) <= 4 * NMAX) ->
      forall t, is_pair cl 4 counts tus corrmin t -> In t P \/
        exists b, In b P /\ clash 4 t b /\ np_le (tcorr t) (tcorr b) = true) /\
    tnr_state 4 (Q ++ T ++ P) corrected targets
      (list_prod (zrange 0 (Z.of_nat (length (Q ++ T ++ P)))) (zrange 0 4)) tg.
Proof.
  intros Hs W HD HN Hco.
  destruct (corr4_phases srt cl counts corrmin flag Hs W HD) as
    (con & Q & T & P & E & Hpre & Hlen & Hdis & Hall & D1 & D2 & D3 & HQ & HT & HP & HF & HC1 & HC2).
  { intros n Hn. specialize (HN n Hn). lia. }
  assert (Hall' : forall c, In c (Q ++ T ++ P) -> in_counts 4 counts c).
  { intros c Hc. destruct (Hall c Hc) as [-> |?]; auto.
    apply blank_in_counts; auto; try lia; [apply W|]. intros n' Hn'. specialize (HN n' Hn'). lia. }
  destruct (assign_ok 4 counts (Q ++ T ++ P) con corrected targets) as (tg & Htg & Hst); auto; try lia.
  { apply W. }
  { intros n Hn. specialize (HN n Hn). lia. }
  exists con, tg, Q, T, P. rewrite E, Htg. cbn [bind].
  split; [reflexivity|]. split; [exact Hpre|]. split; [exact Hlen|]. split; [exact Hdis|]. split; [exact Hall'|].
  split; auto. split; auto. split; auto.
  split. { intros n0 N0. destruct (HQ n0 N0) as (A & _ & B). auto. }
  split; [exact HT|]. split; [exact HP|]. split; [exact HF|]. split; [exact HC1|]. split; [exact HC2|]. exact Hst.
Qed.
