From Coq Require Import Permutation Sorted.
From Verif Require Import Base F64 Model_corr Spec_corr Proof_corr_take Proof_corr_loops Proof_corr_three.
Local Open Scope Z_scope.

Definition mk2 (nc i1 i2 p1 p2 : Z) (corr : f64) : ntupel -> result ntupel := fun old =>
  do q0 <- foldM (fun q n => pyset q n (-2)) (zrange 0 nc) (tp old);
  do q1 <- pyset q0 i1 p1;
  do q2 <- pyset q1 i2 p2;
  Ok {| tp := q2; tcorr := corr |}.
Definition t2 (i1 i2 p1 p2 : Z) (corr : f64) : ntupel :=
  {| tp := slots [(i1, p1); (i2, p2)]; tcorr := corr |}.
Definition fill (nc : Z) (t old : ntupel) : ntupel :=
  {| tp := firstn (Z.to_nat nc) (tp t) ++ skipn (Z.to_nat nc) (tp old); tcorr := tcorr t |}.

Definition pairs {B} (mk : Z -> Z -> Z -> Z -> f64 -> B) (cl : adj) (nc : Z)
    (counts : list Z) (accept : f64) (tus : list (list Z)) : list B :=
  flat_map (fun i1 =>
  flat_map (fun i2 =>
  flat_map (fun i => let c := ce cl i1 i2 i in
    if NMAX <=? cp1 c then [] else if 0 <? gu tus i1 (cp1 c) then [] else
    if negb (cn c =? 1) then [] else
    let p2 := nz (cp2 c) 0 in
    if NMAX <=? p2 then [] else if 0 <? gu tus i2 p2 then [] else
    let corr := fdiv (nf (ccorr c) 0) (nf (cdist c) 0) in
    if fle corr accept then [] else [mk i1 i2 (cp1 c) p2 corr])
    (zrange 0 (nz counts i1))) (zrange (i1 + 1) nc)) (zrange 0 (nc - 1)).

Lemma pair_emit nc cl counts accept sc size tus :
  wf_adj nc counts cl -> table_ok nc counts tus ->
  consistent_pair_matching cl nc counts accept sc size tus =
  runC (emitl size (pairs (mk2 nc) cl nc counts accept tus) (sc, 0)).
Proof.
  intros W T. unfold consistent_pair_matching. f_equal. unfold pairs.
  apply forC_emit. intros i1 s Hi1. inr Hi1.
  apply forC_emit. intros i2 s1 Hi2. inr Hi2.
  destruct (counts_at nc counts cl i1 W ltac:(lia)) as (N1 & ->). cbn [tryC].
  apply forC_emit. intros i s2 Hi. inr Hi.
  destruct (counts_at nc counts cl i2 W ltac:(lia)) as (N2 & _).
  pose proof (wf_good nc _ cl i1 i2 i _ _ W ltac:(lia) ltac:(lia) N1 N2 Hi) as [G12 _ W12].
  rewrite G12. cbn [tryC]. cbv zeta.
  assert (C1 : cp1 (ce cl i1 i2 i) = i) by apply W12.
  destruct (getu_gu nc counts tus i1 i _ T ltac:(lia) (proj1 W) N1 Hi) as (U1 & _ & _).
  rewrite C1.
  destruct (NMAX <=? i); [reflexivity|]. rewrite U1. cbn [tryC].
  destruct (0 <? gu tus i1 i); [reflexivity|].
  destruct (Z.eqb_spec (cn (ce cl i1 i2 i)) 1) as [E1|E1]; [|reflexivity]. cbn [negb].
  destruct (wf_entry_p2 _ _ _ 0 W12 ltac:(lia)) as (-> & R2 & _). cbn [tryC].
  destruct (NMAX <=? nz (cp2 (ce cl i1 i2 i)) 0); [reflexivity|].
  destruct (getu_gu nc counts tus i2 (nz (cp2 (ce cl i1 i2 i)) 0) _ T ltac:(lia) (proj1 W) N2 R2) as (-> & _ & _). cbn [tryC].
  destruct (0 <? gu tus i2 (nz (cp2 (ce cl i1 i2 i)) 0)); [reflexivity|].
  destruct (wf_entry_corr _ _ _ 0 W12 ltac:(unfold MAXCAND; lia)) as (-> & -> & _).
  cbn [tryC].
  match goal with |- context [fle ?a accept] => destruct (fle a accept) end; [reflexivity|].
  cbn [emitl]. unfold mk2.
  match goal with |- ?x = bindC ?y _ => change y with x; destruct x; reflexivity end.
Qed.

Lemma mk2_t2 nc i1 i2 p1 p2 c old : 0 <= i1 < i2 -> i2 < nc <= 4 ->
  length (tp old) = 4%nat -> mk2 nc i1 i2 p1 p2 c old = Ok (fill nc (t2 i1 i2 p1 p2 c) old).
Proof.
  intros H1 H2 Hl. unfold mk2, t2, fill. destruct old as [l x]; cbn [tp] in *.
  destruct l as [|a [|b [|d [|e [|]]]]]; try discriminate. clear Hl.
  assert (Hc : nc = 2 \/ nc = 3 \/ nc = 4) by lia.
  assert (Hi : (i1 = 0 /\ i2 = 1) \/ (i1 = 0 /\ i2 = 2) \/ (i1 = 0 /\ i2 = 3) \/
               (i1 = 1 /\ i2 = 2) \/ (i1 = 1 /\ i2 = 3) \/ (i1 = 2 /\ i2 = 3)) by lia.
  destruct Hc as [->|[->| ->]];
  destruct Hi as [(-> & ->)|[(-> & ->)|[(-> & ->)|[(-> & ->)|[(-> & ->)|(-> & ->)]]]]];
    try lia; reflexivity.
Qed.

Lemma pairs_map nc cl counts accept tus : nc <= 4 ->
  Forall2 (fun mk t => forall old, length (tp old) = 4%nat -> mk old = Ok (fill nc t old))
    (pairs (mk2 nc) cl nc counts accept tus) (pairs t2 cl nc counts accept tus).
Proof.
  intros Hnc. unfold pairs.
  apply Forall2_flat_map_in; intros i1 Hi1. inr Hi1.
  apply Forall2_flat_map_in; intros i2 Hi2. inr Hi2.
  apply Forall2_flat_map_in; intros i Hi. cbv zeta.
  destruct (NMAX <=? _); [constructor|]. destruct (0 <? _); [constructor|].
  destruct (negb _); [constructor|].
  destruct (NMAX <=? _); [constructor|]. destruct (0 <? _); [constructor|].
  destruct (fle _ _); constructor; [|constructor].
  intros old Ho. apply mk2_t2; auto; lia.
Qed.

Lemma emitl_writeF nc size mks ts :
  nc <= 4 ->
  Forall2 (fun mk t => forall old, length (tp old) = 4%nat -> mk old = Ok (fill nc t old)) mks ts ->
  (forall t, In t ts -> length (tp t) = 4%nat) ->
  forall pre suf,
  (forall t, In t suf -> length (tp t) = 4%nat) ->
  Z.of_nat (length pre) < size <= Z.of_nat (length pre + length suf) ->
  runC (emitl size mks (pre ++ suf, Z.of_nat (length pre))) =
  let w := firstn (Z.to_nat size - length pre) ts in
  Ok (pre ++ overwrite_nc (Z.to_nat nc) suf w, Z.of_nat (length pre + length w)).
Proof.
  intros Hnc H; induction H as [|mk t mks ts Hmk HF IH]; intros Hts pre suf Hsuf Hsz.
  - cbn [emitl runC]. rewrite firstn_nil. cbn [overwrite_nc length].
    now rewrite Nat.add_0_r.
  - destruct suf as [|old suf]; [simpl in Hsz; lia|].
    cbn [emitl]. unfold emit at 1.
    assert (E : pyget (pre ++ old :: suf) (Z.of_nat (length pre)) = Ok old).
    { apply pyget_nonneg; [lia|]. rewrite Nat2Z.id, nth_error_app2 by lia.
      now rewrite Nat.sub_diag. }
    rewrite E. cbn [tryC]. rewrite Hmk by (apply Hsuf; simpl; auto). cbn [tryC].
    rewrite pyset_in_range by (rewrite app_length; simpl; lia).
    rewrite Nat2Z.id. cbn [tryC]. rewrite upd_app_len.
    assert (E3 : (Z.to_nat size - length pre)%nat = S (Z.to_nat size - S (length pre))) by lia.
    rewrite E3. cbn [firstn].
    destruct (Z.eqb_spec (Z.of_nat (length pre) + 1) size) as [E1|E1].
    + cbn [bindC runC].
      replace (Z.to_nat size - S (length pre))%nat with O by lia. cbn [firstn length].
      cbn [overwrite_nc]. do 2 f_equal. lia.
    + cbn [bindC].
      replace (Z.of_nat (length pre) + 1) with (Z.of_nat (length (pre ++ [fill nc t old]))) by (rewrite app_length; simpl; lia).
      replace (pre ++ fill nc t old :: suf) with ((pre ++ [fill nc t old]) ++ suf) by (now rewrite <- app_assoc).
      rewrite IH; [| |intros; apply Hsuf; simpl; auto|rewrite app_length; simpl in *; lia].
      2:{ intros; apply Hts; simpl; auto. }
      cbv zeta. rewrite app_length. cbn [length].
      replace (length pre + 1)%nat with (S (length pre)) by lia.
      cbn [overwrite_nc]. rewrite <- app_assoc. cbn [app]. unfold fill.
      do 2 f_equal. lia.
Qed.

Lemma emitl_runF nc size mks ts sc :
  nc <= 4 ->
  Forall2 (fun mk t => forall old, length (tp old) = 4%nat -> mk old = Ok (fill nc t old)) mks ts ->
  (forall t, In t ts -> length (tp t) = 4%nat) -> scratch_ok sc ->
  0 < size <= Z.of_nat (length sc) ->
  runC (emitl size mks (sc, 0)) =
  let w := firstn (Z.to_nat size) ts in Ok (overwrite_nc (Z.to_nat nc) sc w, Z.of_nat (length w)).
Proof.
  intros Hnc HF Hts Hsc Hsz.
  pose proof (emitl_writeF nc size mks ts Hnc HF Hts [] sc Hsc ltac:(simpl; lia)) as E.
  cbn [app length Z.of_nat] in E. rewrite Nat.sub_0_r in E. exact E.
Qed.

Lemma pairs_spec nc cl counts accept tus t :
  wf_adj nc counts cl -> table_ok nc counts tus ->
  (In t (pairs t2 cl nc counts accept tus) <-> is_pair cl nc counts tus accept t).
Proof.
  intros W T.
  assert (G : forall a b i, 0 <= a < b -> b < nc -> 0 <= i < nz counts a -> good (nz counts b) i cl a b).
  { intros a b i Hab Hb Hi.
    destruct (counts_at nc counts cl a W ltac:(lia)) as (Na & _).
    destruct (counts_at nc counts cl b W ltac:(lia)) as (Nb & _). eapply wf_good; eauto. }
  assert (U : forall a i, 0 <= a < nc -> 0 <= i < nz counts a ->
     (0 < gu tus a i <-> used tus a i) /\ i < NMAX).
  { intros a i Ha Hi. destruct (counts_at nc counts cl a W ltac:(lia)) as (Na & _).
    destruct (getu_gu nc counts tus a i _ T Ha (proj1 W) Na Hi) as (_ & ? & ?). auto. }
  unfold pairs. split.
  - intros H.
    apply in_flat_map_z in H as (i1 & Hi1 & H).
    apply in_flat_map_z in H as (i2 & Hi2 & H).
    apply in_flat_map_z in H as (i & Hi & H). cbv zeta in H.
    pose proof (G i1 i2 i ltac:(lia) ltac:(lia) Hi) as G12.
    assert (C1 : cp1 (ce cl i1 i2 i) = i) by apply (g_wf _ _ _ _ _ G12).
    rewrite C1 in H.
    destruct (Z.leb_spec NMAX i); [contradiction|].
    destruct (U i1 i ltac:(lia) Hi) as (U1 & _).
    destruct (Z.ltb_spec 0 (gu tus i1 i)) as [|Q1]; [contradiction|].
    destruct (Z.eqb_spec (cn (ce cl i1 i2 i)) 1) as [E1|E1]; [|contradiction]. cbn [negb] in H.
    destruct (wf_entry_p2 _ _ _ 0 (g_wf _ _ _ _ _ G12) ltac:(lia)) as (_ & R2 & _).
    pose proof (wf_edge _ _ _ _ _ 0 G12 ltac:(lia)) as E12.
    set (p2 := nz (cp2 (ce cl i1 i2 i)) 0) in *.
    destruct (Z.leb_spec NMAX p2); [contradiction|].
    destruct (U i2 p2 ltac:(lia) R2) as (U2 & _).
    destruct (Z.ltb_spec 0 (gu tus i2 p2)) as [|Q2]; [contradiction|].
    match type of H with context [fle ?a accept] => destruct (fle a accept) eqn:EF end; [contradiction|].
    destruct H as [<-|[]].
    exists i1, i2, (nz counts i1), i, p2. do 2 eexists.
    split; [lia|]. split; [lia|]. split; [lia|].
    split; [apply (counts_at nc counts cl i1 W); lia|]. split; [lia|].
    split; [rewrite <- U1; lia|]. split; [rewrite <- U2; lia|].
    split; [exact E12|].
    split. { intros c Hc. now rewrite <- (entry_det _ _ _ _ _ _ (g_entry _ _ _ _ _ G12) Hc). }
    split; [reflexivity|]. split; [reflexivity|]. exact EF.
  - intros (i1 & i2 & n1 & p1 & p2 & x & d &
      I1 & I2 & I3 & N1 & Hp1 & Q1 & Q2 & E12 & Hone & Ht & Hc & Hf).
    destruct (counts_at nc counts cl i1 W ltac:(lia)) as (N1' & _).
    assert (n1 = nz counts i1) by congruence. subst n1.
    pose proof (G i1 i2 p1 ltac:(lia) ltac:(lia) Hp1) as G12.
    assert (E1 : cn (ce cl i1 i2 p1) = 1) by (apply Hone; apply (g_entry _ _ _ _ _ G12)).
    destruct (edge_inv _ _ _ _ _ _ _ _ G12 E12) as (j & Hj & Ej & -> & ->).
    assert (j = 0) by lia. subst j.
    destruct (wf_entry_p2 _ _ _ _ (g_wf _ _ _ _ _ G12) Hj) as (_ & R2 & _).
    rewrite <- Ej in R2.
    destruct (U i1 p1 ltac:(lia) Hp1) as (U1 & B1).
    destruct (U i2 p2 ltac:(lia) R2) as (U2 & B2).
    apply in_flat_map_z. exists i1. split; [lia|].
    apply in_flat_map_z. exists i2. split; [lia|].
    apply in_flat_map_z. exists p1. split; [auto|]. cbv zeta.
    assert (C1 : cp1 (ce cl i1 i2 p1) = p1) by apply (g_wf _ _ _ _ _ G12). rewrite C1.
    destruct (Z.leb_spec NMAX p1); [lia|].
    destruct (Z.ltb_spec 0 (gu tus i1 p1)); [tauto|].
    rewrite E1. cbn [Z.eqb Pos.eqb negb]. rewrite <- Ej.
    destruct (Z.leb_spec NMAX p2); [lia|].
    destruct (Z.ltb_spec 0 (gu tus i2 p2)); [tauto|].
    rewrite <- Hc, Hf. left. unfold t2. destruct t; simpl in *; congruence.
Qed.

(** no pair is found twice *)
Lemma slots2_inj i1 i2 p1 p2 j1 j2 q1 q2 : 0 <= i1 < i2 -> i2 < 4 -> 0 <= j1 < j2 -> j2 < 4 -> 0 <= p1 -> 0 <= p2 -> 0 <= q1 -> 0 <= q2 ->
  slots [(i1, p1); (i2, p2)] = slots [(j1, q1); (j2, q2)] -> i1 = j1 /\ i2 = j2 /\ p1 = q1 /\ p2 = q2.
Proof.
  intros H1 H2 H3 H4 P1 P2 Q1 Q2.
  assert (A : (i1 = 0 /\ i2 = 1) \/ (i1 = 0 /\ i2 = 2) \/ (i1 = 0 /\ i2 = 3) \/ (i1 = 1 /\ i2 = 2) \/ (i1 = 1 /\ i2 = 3) \/ (i1 = 2 /\ i2 = 3)) by lia.
  assert (B : (j1 = 0 /\ j2 = 1) \/ (j1 = 0 /\ j2 = 2) \/ (j1 = 0 /\ j2 = 3) \/ (j1 = 1 /\ j2 = 2) \/ (j1 = 1 /\ j2 = 3) \/ (j1 = 2 /\ j2 = 3)) by lia.
  clear H1 H2 H3 H4.
  destruct A as [(-> & ->)|[(-> & ->)|[(-> & ->)|[(-> & ->)|[(-> & ->)|(-> & ->)]]]]];
  destruct B as [(-> & ->)|[(-> & ->)|[(-> & ->)|[(-> & ->)|[(-> & ->)|(-> & ->)]]]]]; cbn; intros [= ]; subst; try lia; repeat split; auto.
Qed.
Lemma pairs_NoDup nc cl counts accept tus : nc <= 4 -> wf_adj nc counts cl -> NoDup (pairs t2 cl nc counts accept tus).
Proof.
  intros Hnc W.
  assert (G : forall a b i, 0 <= a < b -> b < nc -> 0 <= i < nz counts a -> good (nz counts b) i cl a b).
  { intros a b i Hab Hb Hi.
    destruct (counts_at nc counts cl a W ltac:(lia)) as (Na & _).
    destruct (counts_at nc counts cl b W ltac:(lia)) as (Nb & _). eapply wf_good; eauto. }
  unfold pairs. cbv zeta.
  assert (SH : forall i1 i2 i t, 0 <= i1 < i2 -> i2 < nc -> 0 <= i < nz counts i1 ->
    In t (if NMAX <=? cp1 (ce cl i1 i2 i) then [] else if 0 <? gu tus i1 (cp1 (ce cl i1 i2 i)) then [] else
    if negb (cn (ce cl i1 i2 i) =? 1) then [] else
    if NMAX <=? nz (cp2 (ce cl i1 i2 i)) 0 then [] else if 0 <? gu tus i2 (nz (cp2 (ce cl i1 i2 i)) 0) then [] else
    if fle (fdiv (nf (ccorr (ce cl i1 i2 i)) 0) (nf (cdist (ce cl i1 i2 i)) 0)) accept then [] else
    [t2 i1 i2 (cp1 (ce cl i1 i2 i)) (nz (cp2 (ce cl i1 i2 i)) 0) (fdiv (nf (ccorr (ce cl i1 i2 i)) 0) (nf (cdist (ce cl i1 i2 i)) 0))]) ->
    exists p2, 0 <= p2 /\ tp t = slots [(i1, i); (i2, p2)]).
  { intros i1 i2 i t H1 H2 Hi H. pose proof (G i1 i2 i ltac:(lia) ltac:(lia) Hi) as G12.
    assert (C1 : cp1 (ce cl i1 i2 i) = i) by apply (g_wf _ _ _ _ _ G12). rewrite C1 in H.
    destruct (NMAX <=? _); [contradiction|]. destruct (0 <? _); [contradiction|].
    destruct (Z.eqb_spec (cn (ce cl i1 i2 i)) 1) as [E1|E1]; [|contradiction]. cbn [negb] in H.
    destruct (wf_entry_p2 _ _ _ 0 (g_wf _ _ _ _ _ G12) ltac:(lia)) as (_ & R2 & _).
    destruct (NMAX <=? _); [contradiction|]. destruct (0 <? _); [contradiction|]. destruct (fle _ _); [contradiction|]. destruct H as [<-|[]]. eexists. split; [apply R2|reflexivity]. }
  apply NoDup_flat_map; [apply NoDup_zrange| |].
  2:{ intros i1 i1' t Hi1 Hi1' H H'. inr Hi1. inr Hi1'. apply in_flat_map_z in H as (i2 & Hi2 & H). apply in_flat_map_z in H' as (i2' & Hi2' & H').
      apply in_flat_map_z in H as (i & Hi & H). apply in_flat_map_z in H' as (i' & Hi' & H').
      destruct (SH i1 i2 i t ltac:(lia) ltac:(lia) Hi H) as (p & P & E). destruct (SH i1' i2' i' t ltac:(lia) ltac:(lia) Hi' H') as (p' & P' & E').
      rewrite E in E'. apply slots2_inj in E'; lia. }
  intros i1 Hi1. inr Hi1. apply NoDup_flat_map; [apply NoDup_zrange| |].
  2:{ intros i2 i2' t Hi2 Hi2' H H'. inr Hi2. inr Hi2'. apply in_flat_map_z in H as (i & Hi & H). apply in_flat_map_z in H' as (i' & Hi' & H').
      destruct (SH i1 i2 i t ltac:(lia) ltac:(lia) Hi H) as (p & P & E). destruct (SH i1 i2' i' t ltac:(lia) ltac:(lia) Hi' H') as (p' & P' & E').
      rewrite E in E'. apply slots2_inj in E'; lia. }
  intros i2 Hi2. inr Hi2. apply NoDup_flat_map; [apply NoDup_zrange| |].
  2:{ intros i i' t Hi Hi' H H'. inr Hi. inr Hi'.
      destruct (SH i1 i2 i t ltac:(lia) ltac:(lia) Hi H) as (p & P & E). destruct (SH i1 i2 i' t ltac:(lia) ltac:(lia) Hi' H') as (p' & P' & E').
      rewrite E in E'. apply slots2_inj in E'; lia. }
  intros i Hi. repeat (match goal with |- NoDup (if ?b then _ else _) => destruct b; [constructor|] end). repeat constructor. auto.
Qed.

Lemma pair_exact nc cl counts accept sc size tus :
  nc <= 4 -> wf_adj nc counts cl -> table_ok nc counts tus ->
  scratch_ok sc -> 0 < size <= Z.of_nat (length sc) ->
  exists found,
    (forall t, In t found <-> is_pair cl nc counts tus accept t) /\ NoDup found /\
    consistent_pair_matching cl nc counts accept sc size tus =
      Ok (overwrite_nc (Z.to_nat nc) sc (firstn (Z.to_nat size) found),
          Z.of_nat (length (firstn (Z.to_nat size) found))).
Proof.
  intros Hnc W T Hsc Hsz. exists (pairs t2 cl nc counts accept tus). split; [|split].
  - intros t. now apply pairs_spec.
  - now apply pairs_NoDup.
  - rewrite pair_emit by auto.
    rewrite (emitl_runF nc size _ (pairs t2 cl nc counts accept tus)); auto.
    + now apply pairs_map.
    + intros t Ht. apply pairs_spec in Ht; auto.
      destruct Ht as (? & ? & ? & ? & ? & ? & ? & _ & _ & _ & _ & _ & _ & _ & _ & _ & E & _).
      rewrite E. reflexivity.
Qed.
