From Coq Require Import Permutation Sorted.
From Verif Require Import Base F64 Model_corr Spec_corr Proof_corr_take Proof_corr_loops.
Local Open Scope Z_scope.

Definition gu (tus : list (list Z)) (cam t : Z) : Z :=
  match getu tus cam t with Ok u => u | Exn _ => 0 end.

Lemma getu_gu nc counts tus cam t n :
  table_ok nc counts tus -> 0 <= cam < nc -> length counts = Z.to_nat nc ->
  nth_error counts (Z.to_nat cam) = Some n -> 0 <= t < n ->
  getu tus cam t = Ok (gu tus cam t) /\ (0 < gu tus cam t <-> used tus cam t) /\ t < NMAX.
Proof.
  intros (T1 & T2 & T3) Hc Lc Hn Ht.
  assert (Hn2 : n <= NMAX) by (apply T2; eauto using nth_error_In).
  destruct (nth_error tus (Z.to_nat cam)) as [row|] eqn:Er.
  2:{ apply nth_error_None in Er. lia. }
  assert (Lr : length row = Z.to_nat NMAX) by (apply T3; eauto using nth_error_In).
  destruct (nth_error row (Z.to_nat t)) as [u|] eqn:Eu.
  2:{ apply nth_error_None in Eu. rewrite Lr in Eu. lia. }
  assert (G : getu tus cam t = Ok u) by (apply getu_ok; try lia; eauto).
  unfold gu. rewrite G. split; auto. split; [|lia]. unfold used. split.
  - intros; repeat split; try lia. eauto.
  - intros (_ & _ & r & v & R1 & R2 & R3). congruence.
Qed.

Lemma find_first_some l x i m : find_first l x i = Some m ->
  i <= m < i + Z.of_nat (length l) /\ nth_error l (Z.to_nat (m - i)) = Some x /\
  (forall k, (k < Z.to_nat (m - i))%nat -> nth_error l k <> Some x).
Proof.
  revert i; induction l as [|h t IH]; intros i H; simpl in H; [discriminate|].
  destruct (Z.eqb_spec h x) as [->|Hne].
  - inversion H; subst. rewrite Z.sub_diag. simpl. split; [lia|]. split; auto. intros; lia.
  - apply IH in H as (H1 & H2 & H3). cbn [length].
    replace (Z.to_nat (m - i)) with (S (Z.to_nat (m - (i + 1)))) by lia. cbn [nth_error].
    split; [lia|]. split; auto. intros [|k] Hk; simpl; [congruence|]. apply H3; lia.
Qed.

Lemma find_first_none l x i : find_first l x i = None -> ~ In x l.
Proof.
  revert i; induction l as [|h t IH]; intros i H; simpl in *; auto.
  destruct (Z.eqb_spec h x); [discriminate|]. intros [?|?]; [auto|]. eapply IH; eauto.
Qed.

Definition mk3 (nc i1 i2 i3 p1 p2 p3 : Z) (corr : f64) : ntupel -> result ntupel := fun old =>
  do q1 <- pyset (repeat (-2) (Z.to_nat nc)) i1 p1;
  do q2 <- pyset q1 i2 p2;
  do q3 <- pyset q2 i3 p3;
  if Nat.eqb (length q3) (length (tp old)) then Ok {| tp := q3; tcorr := corr |} else Exn ValueError.

Definition t3 (i1 i2 i3 p1 p2 p3 : Z) (corr : f64) : ntupel :=
  {| tp := slots [(i1, p1); (i2, p2); (i3, p3)]; tcorr := corr |}.

Definition triples {B} (mk : Z -> Z -> Z -> Z -> Z -> Z -> f64 -> B) (cl : adj) (nc : Z)
    (counts : list Z) (accept : f64) (tus : list (list Z)) : list B :=
  flat_map (fun i1 =>
  flat_map (fun i =>
  flat_map (fun i2 => let c12 := ce cl i1 i2 i in
    if NMAX <=? cp1 c12 then [] else if 0 <? gu tus i1 (cp1 c12) then [] else
  flat_map (fun j => let p2 := nz (cp2 c12) j in
    if NMAX <? p2 then [] else if 0 <? gu tus i2 p2 then [] else
  flat_map (fun i3 => let c13 := ce cl i1 i3 i in
  flat_map (fun k => let p3 := nz (cp2 c13) k in
    if NMAX <? p3 then [] else if 0 <? gu tus i3 p3 then [] else
    let c23 := ce cl i2 i3 p2 in
    match find_first (cp2 c23) p3 0 with
    | None => []
    | Some m =>
      let corr := fdiv (fadd (fadd (nf (ccorr c12) j) (nf (ccorr c13) k)) (nf (ccorr c23) m))
                       (fadd (fadd (nf (cdist c12) j) (nf (cdist c13) k)) (nf (cdist c23) m)) in
      if fle corr accept then [] else [mk i1 i2 i3 (cp1 c12) p2 p3 corr]
    end) (zrange 0 (cn c13))) (zrange (i2 + 1) nc)) (zrange 0 (cn c12)))
    (zrange (i1 + 1) (nc - 1))) (zrange 0 (nz counts i1))) (zrange 0 (nc - 2)).

Lemma counts_at nc counts cl a : wf_adj nc counts cl -> 0 <= a < nc ->
  nth_error counts (Z.to_nat a) = Some (nz counts a) /\ pyget counts a = Ok (nz counts a).
Proof.
  intros (L & _) Ha. split; [apply nth_error_nz|apply pyget_nz]; lia.
Qed.

Lemma three_emit nc cl counts accept sc size tus :
  wf_adj nc counts cl -> table_ok nc counts tus ->
  three_camera_matching cl nc counts accept sc size tus =
  runC (emitl size (triples (mk3 nc) cl nc counts accept tus) (sc, 0)).
Proof.
  intros W T. unfold three_camera_matching. f_equal. unfold triples.
  apply forC_emit. intros i1 s Hi1. inr Hi1.
  destruct (counts_at nc counts cl i1 W ltac:(lia)) as (N1 & ->). cbn [tryC].
  apply forC_emit. intros i s0 Hi. inr Hi.
  apply forC_emit. intros i2 s1 Hi2. inr Hi2.
  destruct (counts_at nc counts cl i2 W ltac:(lia)) as (N2 & _).
  pose proof (wf_good nc _ cl i1 i2 i _ _ W ltac:(lia) ltac:(lia) N1 N2 Hi) as [G12 _ W12].
  rewrite G12. cbn [tryC]. cbv zeta.
  assert (C1 : cp1 (ce cl i1 i2 i) = i) by apply W12.
  destruct (getu_gu nc counts tus i1 i _ T ltac:(lia) (proj1 W) N1 Hi) as (U1 & _ & _).
  rewrite C1.
  destruct (NMAX <=? i); [reflexivity|]. rewrite U1. cbn [tryC].
  destruct (0 <? gu tus i1 i); [reflexivity|].
  apply forC_emit. intros j s2 Hj. inr Hj.
  destruct (wf_entry_p2 _ _ _ _ W12 Hj) as (-> & R2 & _). cbn [tryC].
  set (p2 := nz (cp2 (ce cl i1 i2 i)) j) in *.
  destruct (NMAX <? p2); [reflexivity|].
  destruct (getu_gu nc counts tus i2 p2 _ T ltac:(lia) (proj1 W) N2 R2) as (-> & _ & _). cbn [tryC].
  destruct (0 <? gu tus i2 p2); [reflexivity|].
  apply forC_emit. intros i3 s3 Hi3. inr Hi3.
  destruct (counts_at nc counts cl i3 W ltac:(lia)) as (N3 & _).
  pose proof (wf_good nc _ cl i1 i3 i _ _ W ltac:(lia) ltac:(lia) N1 N3 Hi) as [G13 _ W13].
  rewrite G13. cbn [tryC].
  apply forC_emit. intros k s4 Hk. inr Hk.
  destruct (wf_entry_p2 _ _ _ _ W13 Hk) as (-> & R3 & _). cbn [tryC].
  set (p3 := nz (cp2 (ce cl i1 i3 i)) k) in *.
  destruct (NMAX <? p3); [reflexivity|].
  destruct (getu_gu nc counts tus i3 p3 _ T ltac:(lia) (proj1 W) N3 R3) as (-> & _ & _). cbn [tryC].
  destruct (0 <? gu tus i3 p3); [reflexivity|].
  pose proof (wf_good nc _ cl i2 i3 p2 _ _ W ltac:(lia) ltac:(lia) N2 N3 R2) as [G23 _ W23].
  rewrite G23. cbn [tryC].
  destruct (find_first (cp2 (ce cl i2 i3 p2)) p3 0) as [m|] eqn:Em; [|reflexivity].
  apply find_first_some in Em as (Hm & _ & _).
  assert (M : forall nb i c k, wf_entry nb i c -> 0 <= k < cn c -> 0 <= k < MAXCAND)
    by (intros nb' i' c' k' (_ & ? & _) ?; lia).
  destruct (wf_entry_corr _ _ _ _ W12 (M _ _ _ _ W12 Hj)) as (-> & -> & _).
  destruct (wf_entry_corr _ _ _ _ W13 (M _ _ _ _ W13 Hk)) as (-> & -> & _).
  assert (Hm2 : 0 <= m < MAXCAND).
  { destruct W23 as (_ & _ & L & _). rewrite L in Hm. unfold MAXCAND in *. lia. }
  destruct (wf_entry_corr _ _ _ _ W23 Hm2) as (-> & -> & _).
  cbn [tryC].
  match goal with |- context [fle ?a accept] => destruct (fle a accept) end; [reflexivity|].
  cbn [emitl]. unfold mk3.
  match goal with |- ?x = bindC ?y _ => change y with x; destruct x; reflexivity end.
Qed.

Lemma mk3_t3 i1 i2 i3 p1 p2 p3 c old : 0 <= i1 < i2 -> i2 < i3 < 4 ->
  length (tp old) = 4%nat -> mk3 4 i1 i2 i3 p1 p2 p3 c old = Ok (t3 i1 i2 i3 p1 p2 p3 c).
Proof.
  intros H1 H2 Hl. unfold mk3, t3.
  assert (Hc : (i1 = 0 /\ i2 = 1 /\ i3 = 2) \/ (i1 = 0 /\ i2 = 1 /\ i3 = 3) \/
               (i1 = 0 /\ i2 = 2 /\ i3 = 3) \/ (i1 = 1 /\ i2 = 2 /\ i3 = 3)) by lia.
  destruct Hc as [(-> & -> & ->)|[(-> & -> & ->)|[(-> & -> & ->)|(-> & -> & ->)]]];
    simpl; rewrite Hl; reflexivity.
Qed.

Lemma Forall2_flat_map_in {A B C} (P : B -> C -> Prop) (l : list A) f g :
  (forall a, In a l -> Forall2 P (f a) (g a)) -> Forall2 P (flat_map f l) (flat_map g l).
Proof.
  intros H; induction l as [|a l IH]; simpl; [constructor|].
  apply Forall2_app; [apply H; simpl; auto|apply IH; intros; apply H; simpl; auto].
Qed.

Lemma triples_map cl counts accept tus :
  Forall2 (fun mk t => forall old, length (tp old) = 4%nat -> mk old = Ok t)
    (triples (mk3 4) cl 4 counts accept tus) (triples t3 cl 4 counts accept tus).
Proof.
  unfold triples.
  apply Forall2_flat_map_in; intros i1 Hi1. inr Hi1.
  apply Forall2_flat_map_in; intros i Hi.
  apply Forall2_flat_map_in; intros i2 Hi2. inr Hi2. cbv zeta.
  destruct (NMAX <=? _); [constructor|]. destruct (0 <? _); [constructor|].
  apply Forall2_flat_map_in; intros j Hj.
  destruct (NMAX <? _); [constructor|]. destruct (0 <? _); [constructor|].
  apply Forall2_flat_map_in; intros i3 Hi3. inr Hi3.
  apply Forall2_flat_map_in; intros k Hk.
  destruct (NMAX <? _); [constructor|]. destruct (0 <? _); [constructor|].
  destruct (find_first _ _ _); [|constructor]. destruct (fle _ _); constructor; [|constructor].
  intros old Ho. apply mk3_t3; auto; lia.
Qed.

Lemma find_first_edge nb cl a b i j :
  good nb i cl a b -> distinct_cands cl -> 0 <= j < nb ->
  match find_first (cp2 (ce cl a b i)) j 0 with
  | Some m => forall x d, padded_edge cl a b i j x d <->
                 x = nf (ccorr (ce cl a b i)) m /\ d = nf (cdist (ce cl a b i)) m
  | None => forall x d, ~ padded_edge cl a b i j x d
  end.
Proof.
  intros G HD Hj. destruct (find_first (cp2 (ce cl a b i)) j 0) as [m|] eqn:Em.
  - apply find_first_some in Em as (Hm & Hn & Hmin). rewrite Z.sub_0_r in *.
    pose proof (g_wf _ _ _ _ _ G) as W. assert (W' := W).
    destruct W' as (W1 & W2 & W3 & W4 & W5 & W6 & W7 & W8).
    assert (Hm2 : 0 <= m < MAXCAND) by (rewrite W3 in Hm; unfold MAXCAND in *; lia).
    destruct (wf_entry_corr _ _ _ _ W Hm2) as (_ & _ & Nc & Nd).
    destruct (Z.lt_ge_cases m (cn (ce cl a b i))) as [Hlt|Hge].
    + pose proof (wf_edge _ _ _ _ _ m G ltac:(lia)) as E.
      replace (nz (cp2 (ce cl a b i)) m) with j in E.
      2:{ unfold nz. symmetry. now apply nth_error_nth. }
      intros x d. split.
      * intros [E'|(_ & _ & _ & Hno & _)]; [|exfalso; eapply Hno; eauto].
        destruct (edge_inv _ _ _ _ _ _ _ _ G E') as (k & Hk & Ek & -> & ->).
        assert (k = m); [|subst; auto].
        destruct (wf_entry_p2 _ _ _ _ W Hk) as (_ & _ & Nk). rewrite <- Ek in Nk.
        assert (Z.to_nat k = Z.to_nat m) by (eapply (HD a b i _ _ _ _ (g_entry _ _ _ _ _ G)); eauto; lia).
        lia.
      * intros (-> & ->). left. exact E.
    + assert (Hnoe : forall x' d', ~ edge cl a b i j x' d').
      { intros x' d' E'. destruct (edge_inv _ _ _ _ _ _ _ _ G E') as (k & Hk & Ek & _ & _).
        destruct (wf_entry_p2 _ _ _ _ W Hk) as (_ & _ & Nk). rewrite <- Ek in Nk.
        eapply (Hmin (Z.to_nat k)); eauto. lia. }
      assert (j = 0).
      { specialize (W6 _ _ Hn). destruct (Z.ltb_spec (Z.of_nat (Z.to_nat m)) (cn (ce cl a b i))); lia. }
      assert (X1 : nf (ccorr (ce cl a b i)) m = fzero) by (eapply (W7 (Z.to_nat m)); eauto; lia).
      assert (X2 : nf (cdist (ce cl a b i)) m = fzero) by (eapply (W8 (Z.to_nat m)); eauto; lia).
      rewrite X1, X2. intros x d. split.
      * intros [E|(_ & -> & -> & _)]; [exfalso; eapply Hnoe; eauto|auto].
      * intros (-> & ->). right. split; auto. split; auto. split; auto. split; auto.
        exists (ce cl a b i). split; [apply (g_entry _ _ _ _ _ G)|lia].
  - apply find_first_none in Em. pose proof (g_wf _ _ _ _ _ G) as W.
    intros x d [E|(-> & _ & _ & _ & c & Ec & Hc)].
    + destruct (edge_inv _ _ _ _ _ _ _ _ G E) as (k & Hk & Ek & _ & _).
      destruct (wf_entry_p2 _ _ _ _ W Hk) as (_ & _ & Nk). rewrite <- Ek in Nk.
      apply Em. eauto using nth_error_In.
    + rewrite <- (entry_det _ _ _ _ _ _ (g_entry _ _ _ _ _ G) Ec) in Hc.
      destruct W as (W1 & W2 & W3 & W4 & W5 & W6 & _).
      assert (R : 0 <= MAXCAND - 1 < Z.of_nat (length (cp2 (ce cl a b i)))) by (rewrite W3; unfold MAXCAND; lia).
      pose proof (nth_error_nz _ _ R) as N. specialize (W6 _ _ N).
      destruct (Z.ltb_spec (Z.of_nat (Z.to_nat (MAXCAND - 1))) (cn (ce cl a b i))); [unfold MAXCAND in *; lia|].
      apply Em. rewrite <- W6. eauto using nth_error_In.
Qed.

Lemma triples_spec nc cl counts accept tus t :
  wf_adj nc counts cl -> distinct_cands cl -> table_ok nc counts tus ->
  (In t (triples t3 cl nc counts accept tus) <-> is_triplet_padded cl nc counts tus accept t).
Proof.
  intros W HD T.
  assert (G : forall a b i, 0 <= a < b -> b < nc -> 0 <= i < nz counts a -> good (nz counts b) i cl a b).
  { intros a b i Hab Hb Hi.
    destruct (counts_at nc counts cl a W ltac:(lia)) as (Na & _).
    destruct (counts_at nc counts cl b W ltac:(lia)) as (Nb & _). eapply wf_good; eauto. }
  assert (U : forall a i, 0 <= a < nc -> 0 <= i < nz counts a ->
     (0 < gu tus a i <-> used tus a i) /\ i < NMAX).
  { intros a i Ha Hi. destruct (counts_at nc counts cl a W ltac:(lia)) as (Na & _).
    destruct (getu_gu nc counts tus a i _ T Ha (proj1 W) Na Hi) as (_ & ? & ?). auto. }
  unfold triples. split.
  - intros H.
    apply in_flat_map_z in H as (i1 & Hi1 & H).
    apply in_flat_map_z in H as (i & Hi & H).
    apply in_flat_map_z in H as (i2 & Hi2 & H). cbv zeta in H.
    pose proof (G i1 i2 i ltac:(lia) ltac:(lia) Hi) as G12.
    assert (C1 : cp1 (ce cl i1 i2 i) = i) by apply (g_wf _ _ _ _ _ G12).
    rewrite C1 in H.
    destruct (Z.leb_spec NMAX i); [contradiction|].
    destruct (U i1 i ltac:(lia) Hi) as (U1 & _).
    destruct (Z.ltb_spec 0 (gu tus i1 i)) as [|Q1]; [contradiction|].
    apply in_flat_map_z in H as (j & Hj & H).
    destruct (wf_entry_p2 _ _ _ _ (g_wf _ _ _ _ _ G12) Hj) as (_ & R2 & _).
    pose proof (wf_edge _ _ _ _ _ _ G12 Hj) as E12.
    set (p2 := nz (cp2 (ce cl i1 i2 i)) j) in *.
    destruct (Z.ltb_spec NMAX p2); [contradiction|].
    destruct (U i2 p2 ltac:(lia) R2) as (U2 & _).
    destruct (Z.ltb_spec 0 (gu tus i2 p2)) as [|Q2]; [contradiction|].
    apply in_flat_map_z in H as (i3 & Hi3 & H).
    apply in_flat_map_z in H as (k & Hk & H).
    pose proof (G i1 i3 i ltac:(lia) ltac:(lia) Hi) as G13.
    destruct (wf_entry_p2 _ _ _ _ (g_wf _ _ _ _ _ G13) Hk) as (_ & R3 & _).
    pose proof (wf_edge _ _ _ _ _ _ G13 Hk) as E13.
    set (p3 := nz (cp2 (ce cl i1 i3 i)) k) in *.
    destruct (Z.ltb_spec NMAX p3); [contradiction|].
    destruct (U i3 p3 ltac:(lia) R3) as (U3 & _).
    destruct (Z.ltb_spec 0 (gu tus i3 p3)) as [|Q3]; [contradiction|].
    pose proof (G i2 i3 p2 ltac:(lia) ltac:(lia) R2) as G23.
    pose proof (find_first_edge _ _ _ _ _ p3 G23 HD R3) as FE.
    destruct (find_first (cp2 (ce cl i2 i3 p2)) p3 0) as [m|]; [|contradiction].
    match type of H with context [fle ?a accept] => destruct (fle a accept) eqn:EF end; [contradiction|].
    destruct H as [<-|[]].
    exists i1, i2, i3, (nz counts i1), i, p2, p3.
    do 4 eexists. exists (nf (ccorr (ce cl i2 i3 p2)) m), (nf (cdist (ce cl i2 i3 p2)) m).
    split; [lia|]. split; [lia|]. split; [lia|]. split; [lia|].
    split; [apply (counts_at nc counts cl i1 W); lia|]. split; [lia|].
    split; [rewrite <- U1; lia|]. split; [rewrite <- U2; lia|]. split; [rewrite <- U3; lia|].
    split; [exact E12|]. split; [exact E13|]. split; [apply FE; auto|].
    split; [reflexivity|]. split; [reflexivity|]. exact EF.
  - intros (i1 & i2 & i3 & n1 & p1 & p2 & p3 & x12 & d12 & x13 & d13 & x23 & d23 &
      I1 & I2 & I3 & I4 & N1 & Hp1 & Q1 & Q2 & Q3 & E12 & E13 & E23 & Ht & Hc & Hf).
    destruct (counts_at nc counts cl i1 W ltac:(lia)) as (N1' & _).
    assert (n1 = nz counts i1) by congruence. subst n1.
    pose proof (G i1 i2 p1 ltac:(lia) ltac:(lia) Hp1) as G12.
    pose proof (G i1 i3 p1 ltac:(lia) ltac:(lia) Hp1) as G13.
    destruct (edge_inv _ _ _ _ _ _ _ _ G12 E12) as (j & Hj & Ej & -> & ->).
    destruct (edge_inv _ _ _ _ _ _ _ _ G13 E13) as (k & Hk & Ek & -> & ->).
    destruct (wf_entry_p2 _ _ _ _ (g_wf _ _ _ _ _ G12) Hj) as (_ & R2 & _).
    destruct (wf_entry_p2 _ _ _ _ (g_wf _ _ _ _ _ G13) Hk) as (_ & R3 & _).
    rewrite <- Ej in R2. rewrite <- Ek in R3.
    pose proof (G i2 i3 p2 ltac:(lia) ltac:(lia) R2) as G23.
    pose proof (find_first_edge _ _ _ _ _ p3 G23 HD R3) as FE.
    destruct (U i1 p1 ltac:(lia) Hp1) as (U1 & B1).
    destruct (U i2 p2 ltac:(lia) R2) as (U2 & B2).
    destruct (U i3 p3 ltac:(lia) R3) as (U3 & B3).
    apply in_flat_map_z. exists i1. split; [lia|].
    apply in_flat_map_z. exists p1. split; [auto|].
    apply in_flat_map_z. exists i2. split; [lia|]. cbv zeta.
    assert (C1 : cp1 (ce cl i1 i2 p1) = p1) by apply (g_wf _ _ _ _ _ G12). rewrite C1.
    destruct (Z.leb_spec NMAX p1); [lia|].
    destruct (Z.ltb_spec 0 (gu tus i1 p1)); [tauto|].
    apply in_flat_map_z. exists j. split; [auto|]. rewrite <- Ej.
    destruct (Z.ltb_spec NMAX p2); [lia|].
    destruct (Z.ltb_spec 0 (gu tus i2 p2)); [tauto|].
    apply in_flat_map_z. exists i3. split; [lia|].
    apply in_flat_map_z. exists k. split; [auto|]. rewrite <- Ek.
    destruct (Z.ltb_spec NMAX p3); [lia|].
    destruct (Z.ltb_spec 0 (gu tus i3 p3)); [tauto|].
    destruct (find_first (cp2 (ce cl i2 i3 p2)) p3 0) as [m|]; [|exfalso; eapply FE; eauto].
    apply FE in E23 as (-> & ->). rewrite <- Hc, Hf. left. unfold t3.
    destruct t; simpl in *; congruence.
Qed.

(** no triplet is found twice *)
Lemma slots3_inj i1 i2 i3 p1 p2 p3 j1 j2 j3 q1 q2 q3 : 0 <= i1 < i2 -> i2 < i3 < 4 -> 0 <= j1 < j2 -> j2 < j3 < 4 ->
  0 <= p1 -> 0 <= p2 -> 0 <= p3 -> 0 <= q1 -> 0 <= q2 -> 0 <= q3 ->
  slots [(i1, p1); (i2, p2); (i3, p3)] = slots [(j1, q1); (j2, q2); (j3, q3)] -> i1 = j1 /\ i2 = j2 /\ i3 = j3 /\ p1 = q1 /\ p2 = q2 /\ p3 = q3.
Proof.
  intros H1 H2 H3 H4 P1 P2 P3 Q1 Q2 Q3.
  assert (A : (i1 = 0 /\ i2 = 1 /\ i3 = 2) \/ (i1 = 0 /\ i2 = 1 /\ i3 = 3) \/ (i1 = 0 /\ i2 = 2 /\ i3 = 3) \/ (i1 = 1 /\ i2 = 2 /\ i3 = 3)) by lia.
  assert (B : (j1 = 0 /\ j2 = 1 /\ j3 = 2) \/ (j1 = 0 /\ j2 = 1 /\ j3 = 3) \/ (j1 = 0 /\ j2 = 2 /\ j3 = 3) \/ (j1 = 1 /\ j2 = 2 /\ j3 = 3)) by lia.
  clear H1 H2 H3 H4.
  destruct A as [(-> & -> & ->)|[(-> & -> & ->)|[(-> & -> & ->)|(-> & -> & ->)]]];
  destruct B as [(-> & -> & ->)|[(-> & -> & ->)|[(-> & -> & ->)|(-> & -> & ->)]]]; cbn; intros [= ]; subst; try lia; repeat split; auto.
Qed.
(** the shape of the entries below one level of the search *)
Lemma triples_NoDup cl counts accept tus : wf_adj 4 counts cl -> distinct_cands cl -> NoDup (triples t3 cl 4 counts accept tus).
Proof.
  intros W HD.
  assert (G : forall a b i, 0 <= a < b -> b < 4 -> 0 <= i < nz counts a -> good (nz counts b) i cl a b).
  { intros a b i Hab Hb Hi.
    destruct (counts_at 4 counts cl a W ltac:(lia)) as (Na & _).
    destruct (counts_at 4 counts cl b W ltac:(lia)) as (Nb & _). eapply wf_good; eauto. }
  (* everything an entry says *)
  assert (SH3 : forall i1 i2 i3 i j p2 t, 0 <= i1 < i2 -> i2 < i3 < 4 -> 0 <= i < nz counts i1 ->
    In t (flat_map (fun k => let p3 := nz (cp2 (ce cl i1 i3 i)) k in
      if NMAX <? p3 then [] else if 0 <? gu tus i3 p3 then [] else
      let c23 := ce cl i2 i3 p2 in
      match find_first (cp2 c23) p3 0 with
      | None => []
      | Some m =>
        let corr := fdiv (fadd (fadd (nf (ccorr (ce cl i1 i2 i)) j) (nf (ccorr (ce cl i1 i3 i)) k)) (nf (ccorr c23) m))
                         (fadd (fadd (nf (cdist (ce cl i1 i2 i)) j) (nf (cdist (ce cl i1 i3 i)) k)) (nf (cdist c23) m)) in
        if fle corr accept then [] else [t3 i1 i2 i3 (cp1 (ce cl i1 i2 i)) p2 p3 corr]
      end) (zrange 0 (cn (ce cl i1 i3 i)))) ->
    exists k, 0 <= k < cn (ce cl i1 i3 i) /\ 0 <= nz (cp2 (ce cl i1 i3 i)) k /\ tp t = slots [(i1, i); (i2, p2); (i3, nz (cp2 (ce cl i1 i3 i)) k)]).
  { intros i1 i2 i3 i j p2 t H1 H2 Hi H. apply in_flat_map_z in H as (k & Hk & H). cbv zeta in H.
    pose proof (G i1 i3 i ltac:(lia) ltac:(lia) Hi) as G13. pose proof (G i1 i2 i ltac:(lia) ltac:(lia) Hi) as G12.
    destruct (wf_entry_p2 _ _ _ _ (g_wf _ _ _ _ _ G13) Hk) as (_ & R3 & _).
    destruct (NMAX <? _); [contradiction|]. destruct (0 <? _); [contradiction|]. destruct (find_first _ _ _); [|contradiction]. destruct (fle _ _); [contradiction|].
    destruct H as [<-|[]]. exists k. split; [lia|]. split; [lia|]. unfold t3. cbn [tp].
    assert (C1 : cp1 (ce cl i1 i2 i) = i) by apply (g_wf _ _ _ _ _ G12). now rewrite C1. }
  unfold triples. cbv zeta in *.
  assert (SH2 : forall i1 i2 i t, 0 <= i1 < i2 -> i2 < 3 -> 0 <= i < nz counts i1 ->
    In t (flat_map (fun j => let p2 := nz (cp2 (ce cl i1 i2 i)) j in
      if NMAX <? p2 then [] else if 0 <? gu tus i2 p2 then [] else
      flat_map (fun i3 => flat_map (fun k => let p3 := nz (cp2 (ce cl i1 i3 i)) k in
      if NMAX <? p3 then [] else if 0 <? gu tus i3 p3 then [] else
      let c23 := ce cl i2 i3 p2 in
      match find_first (cp2 c23) p3 0 with
      | None => []
      | Some m =>
        let corr := fdiv (fadd (fadd (nf (ccorr (ce cl i1 i2 i)) j) (nf (ccorr (ce cl i1 i3 i)) k)) (nf (ccorr c23) m))
                         (fadd (fadd (nf (cdist (ce cl i1 i2 i)) j) (nf (cdist (ce cl i1 i3 i)) k)) (nf (cdist c23) m)) in
        if fle corr accept then [] else [t3 i1 i2 i3 (cp1 (ce cl i1 i2 i)) p2 p3 corr]
      end) (zrange 0 (cn (ce cl i1 i3 i)))) (zrange (i2 + 1) 4)) (zrange 0 (cn (ce cl i1 i2 i)))) ->
    exists j i3 k, 0 <= j < cn (ce cl i1 i2 i) /\ i2 < i3 < 4 /\ 0 <= nz (cp2 (ce cl i1 i2 i)) j /\ 0 <= nz (cp2 (ce cl i1 i3 i)) k /\
      tp t = slots [(i1, i); (i2, nz (cp2 (ce cl i1 i2 i)) j); (i3, nz (cp2 (ce cl i1 i3 i)) k)]).
  { intros i1 i2 i t H1 H2 Hi H. apply in_flat_map_z in H as (j & Hj & H). cbv zeta in H.
    pose proof (G i1 i2 i ltac:(lia) ltac:(lia) Hi) as G12. destruct (wf_entry_p2 _ _ _ _ (g_wf _ _ _ _ _ G12) Hj) as (_ & R2 & _).
    destruct (NMAX <? _); [contradiction|]. destruct (0 <? _); [contradiction|]. apply in_flat_map_z in H as (i3 & Hi3 & H).
    destruct (SH3 i1 i2 i3 i j _ t ltac:(lia) ltac:(lia) Hi H) as (k & _ & K & E). exists j, i3, k. split; [lia|]. split; [lia|]. split; [lia|]. auto. }
  cbv zeta in *.
  apply NoDup_flat_map; [apply NoDup_zrange| |].
  2:{ intros i1 i1' t Hi1 Hi1' H H'. inr Hi1. inr Hi1'. apply in_flat_map_z in H as (i & Hi & H). apply in_flat_map_z in H' as (i' & Hi' & H').
      apply in_flat_map_z in H as (i2 & Hi2 & H). apply in_flat_map_z in H' as (i2' & Hi2' & H').
      destruct (NMAX <=? _); [contradiction|]. destruct (0 <? _); [contradiction|]. destruct (NMAX <=? _); [contradiction|]. destruct (0 <? _); [contradiction|].
      destruct (SH2 i1 i2 i t ltac:(lia) ltac:(lia) Hi H) as (j & i3 & k & _ & I3 & P2 & P3 & E).
      destruct (SH2 i1' i2' i' t ltac:(lia) ltac:(lia) Hi' H') as (j' & i3' & k' & _ & I3' & P2' & P3' & E').
      rewrite E in E'. apply slots3_inj in E'; try lia. }
  intros i1 Hi1. inr Hi1. apply NoDup_flat_map; [apply NoDup_zrange| |].
  2:{ intros i i' t Hi Hi' H H'. inr Hi. inr Hi'.
      apply in_flat_map_z in H as (i2 & Hi2 & H). apply in_flat_map_z in H' as (i2' & Hi2' & H').
      destruct (NMAX <=? _); [contradiction|]. destruct (0 <? _); [contradiction|]. destruct (NMAX <=? _); [contradiction|]. destruct (0 <? _); [contradiction|].
      destruct (SH2 i1 i2 i t ltac:(lia) ltac:(lia) Hi H) as (j & i3 & k & _ & I3 & P2 & P3 & E).
      destruct (SH2 i1 i2' i' t ltac:(lia) ltac:(lia) Hi' H') as (j' & i3' & k' & _ & I3' & P2' & P3' & E').
      rewrite E in E'. apply slots3_inj in E'; try lia. }
  intros i Hi. inr Hi. apply NoDup_flat_map; [apply NoDup_zrange| |].
  2:{ intros i2 i2' t Hi2 Hi2' H H'. inr Hi2. inr Hi2'.
      destruct (NMAX <=? _); [contradiction|]. destruct (0 <? _); [contradiction|]. destruct (NMAX <=? _); [contradiction|]. destruct (0 <? _); [contradiction|].
      destruct (SH2 i1 i2 i t ltac:(lia) ltac:(lia) Hi H) as (j & i3 & k & _ & I3 & P2 & P3 & E).
      destruct (SH2 i1 i2' i t ltac:(lia) ltac:(lia) Hi H') as (j' & i3' & k' & _ & I3' & P2' & P3' & E').
      rewrite E in E'. apply slots3_inj in E'; try lia. }
  intros i2 Hi2. inr Hi2. destruct (NMAX <=? _); [constructor|]. destruct (0 <? _); [constructor|].
  pose proof (G i1 i2 i ltac:(lia) ltac:(lia) Hi) as G12.
  apply NoDup_flat_map; [apply NoDup_zrange| |].
  2:{ intros j j' t Hj Hj' H H'. inr Hj. inr Hj'.
      destruct (wf_entry_p2 _ _ _ _ (g_wf _ _ _ _ _ G12) Hj) as (_ & R2 & _). destruct (wf_entry_p2 _ _ _ _ (g_wf _ _ _ _ _ G12) Hj') as (_ & R2' & _).
      destruct (NMAX <? _); [contradiction|]. destruct (0 <? _); [contradiction|]. destruct (NMAX <? _); [contradiction|]. destruct (0 <? _); [contradiction|].
      apply in_flat_map_z in H as (i3 & Hi3 & H). apply in_flat_map_z in H' as (i3' & Hi3' & H').
      destruct (SH3 i1 i2 i3 i j _ t ltac:(lia) ltac:(lia) Hi H) as (k & _ & P3 & E).
      destruct (SH3 i1 i2 i3' i j' _ t ltac:(lia) ltac:(lia) Hi H') as (k' & _ & P3' & E').
      rewrite E in E'. apply slots3_inj in E'; try lia. destruct E' as (_ & _ & _ & _ & E' & _). eapply (nz_inj _ _ _ _ _ _ _ HD G12); eauto. }
  intros j Hj. inr Hj. destruct (wf_entry_p2 _ _ _ _ (g_wf _ _ _ _ _ G12) Hj) as (_ & R2 & _).
  destruct (NMAX <? _); [constructor|]. destruct (0 <? _); [constructor|].
  apply NoDup_flat_map; [apply NoDup_zrange| |].
  2:{ intros i3 i3' t Hi3 Hi3' H H'. inr Hi3. inr Hi3'.
      destruct (SH3 i1 i2 i3 i j _ t ltac:(lia) ltac:(lia) Hi H) as (k & _ & P3 & E).
      destruct (SH3 i1 i2 i3' i j _ t ltac:(lia) ltac:(lia) Hi H') as (k' & _ & P3' & E').
      rewrite E in E'. apply slots3_inj in E'; try lia. }
  intros i3 Hi3. inr Hi3. pose proof (G i1 i3 i ltac:(lia) ltac:(lia) Hi) as G13.
  apply NoDup_flat_map; [apply NoDup_zrange| |].
  2:{ intros k k' t Hk Hk' H H'. inr Hk. inr Hk'.
      destruct (wf_entry_p2 _ _ _ _ (g_wf _ _ _ _ _ G13) Hk) as (_ & R3 & _). destruct (wf_entry_p2 _ _ _ _ (g_wf _ _ _ _ _ G13) Hk') as (_ & R3' & _).
      destruct (NMAX <? _); [contradiction|]. destruct (0 <? _); [contradiction|]. destruct (NMAX <? _); [contradiction|]. destruct (0 <? _); [contradiction|].
      destruct (find_first _ _ _); [|contradiction]. destruct (find_first _ _ _); [|contradiction]. destruct (fle _ _); [contradiction|]. destruct (fle _ _); [contradiction|].
      destruct H as [<-|[]]. destruct H' as [H'|[]]. apply (f_equal tp) in H'. unfold t3 in H'. cbn [tp] in H'.
      assert (C1 : cp1 (ce cl i1 i2 i) = i) by apply (g_wf _ _ _ _ _ G12). rewrite C1 in H'. apply slots3_inj in H'; try lia. destruct H' as (_ & _ & _ & _ & _ & H').
      eapply (nz_inj _ _ _ _ _ _ _ HD G13); eauto. }
  intros k Hk. destruct (NMAX <? _); [constructor|]. destruct (0 <? _); [constructor|]. destruct (find_first _ _ _); [|constructor]. destruct (fle _ _); repeat constructor. auto.
Qed.

Lemma three_exact cl counts accept sc size tus :
  wf_adj 4 counts cl -> distinct_cands cl -> table_ok 4 counts tus ->
  scratch_ok sc -> 0 < size <= Z.of_nat (length sc) ->
  exists found,
    (forall t, In t found <-> is_triplet_padded cl 4 counts tus accept t) /\ NoDup found /\
    three_camera_matching cl 4 counts accept sc size tus =
      Ok (overwrite sc (firstn (Z.to_nat size) found), Z.of_nat (length (firstn (Z.to_nat size) found))).
Proof.
  intros W HD T Hsc Hsz. exists (triples t3 cl 4 counts accept tus). split; [|split].
  - intros t. now apply triples_spec.
  - now apply triples_NoDup.
  - rewrite three_emit by auto.
    rewrite (emitl_run size _ (triples t3 cl 4 counts accept tus)); auto.
    + apply triples_map.
    + intros t Ht. apply triples_spec in Ht; auto.
      destruct Ht as (? & ? & ? & ? & ? & ? & ? & ? & ? & ? & ? & ? & ? & _ & _ & _ & _ & _ & _ & _ & _ & _ & _ & _ & _ & E & _).
      rewrite E. reflexivity.
Qed.

(** with three cameras the 4-slot scratch entry cannot take the 3-vector *)
Lemma emitl_raise size mks sc :
  (forall mk old, In mk mks -> length (tp old) = 4%nat -> mk old = Exn ValueError) -> scratch_ok sc ->
  0 < Z.of_nat (length sc) ->
  runC (emitl size mks (sc, 0)) = match mks with [] => Ok (sc, 0) | _ => Exn ValueError end.
Proof.
  intros H Hsc Hl. destruct mks as [|mk mks]; [reflexivity|].
  cbn [emitl]. unfold emit.
  destruct (pyget_in_range sc 0 ltac:(lia)) as (old & -> & N). cbn [tryC].
  rewrite H; [reflexivity|simpl; auto|]. apply Hsc. eauto using nth_error_In.
Qed.

Lemma three3_mk cl counts accept tus mk old :
  In mk (triples (mk3 3) cl 3 counts accept tus) -> length (tp old) = 4%nat -> mk old = Exn ValueError.
Proof.
  unfold triples. intros H Ho.
  apply in_flat_map_z in H as (i1 & Hi1 & H). apply in_flat_map_z in H as (i & _ & H).
  apply in_flat_map_z in H as (i2 & Hi2 & H). cbv zeta in H.
  assert (i1 = 0) by lia. assert (i2 = 1) by lia. subst.
  destruct (NMAX <=? _) in H; [contradiction|]. destruct (0 <? _) in H; [contradiction|].
  apply in_flat_map_z in H as (j & _ & H).
  destruct (NMAX <? _) in H; [contradiction|]. destruct (0 <? _) in H; [contradiction|].
  apply in_flat_map_z in H as (i3 & Hi3 & H). assert (i3 = 2) by lia. subst.
  apply in_flat_map_z in H as (k & _ & H).
  destruct (NMAX <? _) in H; [contradiction|]. destruct (0 <? _) in H; [contradiction|].
  destruct (find_first _ _ _); [|contradiction]. destruct (fle _ _); [contradiction|].
  destruct H as [<-|[]]. unfold mk3. simpl. now rewrite Ho.
Qed.

Lemma triples_len {B C} (mk : Z -> Z -> Z -> Z -> Z -> Z -> f64 -> B) (mk' : Z -> Z -> Z -> Z -> Z -> Z -> f64 -> C)
  cl nc counts accept tus :
  Forall2 (fun _ _ => True) (triples mk cl nc counts accept tus) (triples mk' cl nc counts accept tus).
Proof.
  unfold triples.
  apply Forall2_flat_map; intros i1. apply Forall2_flat_map; intros i. apply Forall2_flat_map; intros i2. cbv zeta.
  destruct (NMAX <=? _); [constructor|]. destruct (0 <? _); [constructor|]. apply Forall2_flat_map; intros j.
  destruct (NMAX <? _); [constructor|]. destruct (0 <? _); [constructor|].
  apply Forall2_flat_map; intros i3. apply Forall2_flat_map; intros k.
  destruct (NMAX <? _); [constructor|]. destruct (0 <? _); [constructor|].
  destruct (find_first _ _ _); [|constructor]. destruct (fle _ _); repeat constructor.
Qed.

Lemma three_cams3 cl counts accept sc size tus :
  wf_adj 3 counts cl -> distinct_cands cl -> table_ok 3 counts tus ->
  scratch_ok sc -> 0 < Z.of_nat (length sc) ->
  three_camera_matching cl 3 counts accept sc size tus = Ok (sc, 0) /\
    (forall t, ~ is_triplet_padded cl 3 counts tus accept t) \/
  three_camera_matching cl 3 counts accept sc size tus = Exn ValueError /\
    (exists t, is_triplet_padded cl 3 counts tus accept t).
Proof.
  intros W HD T Hsc Hl. rewrite three_emit by auto.
  rewrite emitl_raise; auto. 2:{ intros mk old. apply three3_mk. }
  pose proof (triples_len (mk3 3) t3 cl 3 counts accept tus) as F.
  pose proof (fun t => triples_spec 3 cl counts accept tus t W HD T) as S.
  destruct (triples t3 cl 3 counts accept tus) as [|y l'] eqn:E2.
  - left. inversion F. split; auto. intros t Ht. apply S in Ht. contradiction.
  - right. inversion F. split; auto. exists y. apply S. simpl; auto.
Qed.
