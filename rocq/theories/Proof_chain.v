(** Proofs for the whole correspondence search. *)
From Coq Require Import Permutation Sorted.
From Verif Require Import F64 Model_corr Spec_corr Proof_corr_pm Proof_corr_main Proof_corr_prop Prop_corr
  Model_cand Spec_cand Proof_cand Proof_cand2 Model_misc Spec_misc Proof_misc Model_chain Spec_chain Lib Base.
Local Open Scope Z_scope.

Lemma NoDup_map_on {A B} (f : A -> B) l : NoDup l -> (forall x y, In x l -> In y l -> f x = f y -> x = y) -> NoDup (map f l).
Proof.
  induction 1 as [|x l H N IH]; intros I; [constructor|]. cbn [map]. constructor.
  - intros X. apply in_map_iff in X as (y & E & Hy). apply H. rewrite <- (I y x); auto; [now right|now left].
  - apply IH. intros a b Ha Hb. apply I; now right.
Qed.

Section Chain.
Variable srt : list ntupel -> list ntupel.
Variable sort_x : list coord2d -> list coord2d.
Variable flat : Z -> f64 -> f64 -> f64 * f64.
Variable epi : Z -> Z -> f64 -> f64 -> result (f64 * f64 * f64 * f64).
Variable vp : vol_limits.
Variable sens : Z -> sensor.
Variable imgs : list (list target).
Hypothesis SRT : sorts srt.
Hypothesis SX : sorts_by_x sort_x.
Hypothesis US : usable flat epi imgs.

Let flats := map snd (matched sort_x flat imgs).
Let imgs' := map fst (matched sort_x flat imgs).
Let counts := map (fun ts => Z.of_nat (length ts)) imgs'.

(** camera a: targets, renumbered targets, sorted coordinates *)
Definition cam_ok (a : nat) (ts ts' : list target) (cs : list coord2d) : Prop :=
  nth_error imgs a = Some ts /\ nth_error imgs' a = Some ts' /\ nth_error flats a = Some cs /\
  nth_error counts a = Some (Z.of_nat (length ts)) /\
  length ts' = length ts /\ length cs = length ts /\
  (forall k t, nth_error ts k = Some t -> nth_error ts' k = Some (set_pnr t (Z.of_nat k))) /\
  (forall c, In c cs <-> exists k t, nth_error ts k = Some t /\ c_pnr c = Z.of_nat k /\ (c_x c, c_y c) = flat (Z.of_nat a) (t_x t) (t_y t)) /\
  ascending (map c_x cs) /\ NoDup (map c_pnr cs) /\ pnrs_ok cs ts' /\
  (forall t, In t ts -> small (t_n t) /\ small (t_nx t) /\ small (t_ny t) /\ small (t_sumg t)) /\
  1 <= Z.of_nat (length ts) <= 10000 /\
  (forall t b, In t ts -> exists seg, epi (Z.of_nat a) b (fst (flat (Z.of_nat a) (t_x t) (t_y t))) (snd (flat (Z.of_nat a) (t_x t) (t_y t))) = Ok seg).

Lemma nth_matched a : nth_error (matched sort_x flat imgs) a =
  option_map (fun ts => match_coords (flat (Z.of_nat a)) sort_x ts true) (nth_error imgs a).
Proof. unfold matched. rewrite nth_error_map, nth_enumerate. destruct (nth_error imgs a); reflexivity. Qed.

Lemma pnr_nodup a ts : NoDup (map c_pnr (snd (match_coords (flat a) sort_x ts true))).
Proof.
  pose proof (match_coords_ok (flat a) sort_x SX ts true) as H. destruct (match_coords _ _ _ _) as (ts' & mc).
  destruct H as (HL & HN & HP & _). cbn [snd].
  apply (Permutation_NoDup (l := map t_pnr ts')).
  - apply Permutation_sym. eapply Permutation_trans; [apply (Permutation_map c_pnr HP)|].
    rewrite map_map. apply Permutation_refl.
  - apply NoDup_nth_error. intros i j Hi E. rewrite map_length in Hi. rewrite !nth_error_map in E.
    destruct (nth_error ts i) as [t|] eqn:Et; [|apply nth_error_None in Et; lia].
    pose proof (HN i t Et) as X. rewrite X in E.
    destruct (nth_error ts' j) as [u|] eqn:Eu; [|discriminate]. cbn in E.
    assert (Hj : (j < length ts)%nat) by (rewrite <- HL; apply nth_error_Some; congruence).
    destruct (nth_error ts j) as [t2|] eqn:Et2; [|apply nth_error_None in Et2; lia].
    rewrite (HN j t2 Et2) in Eu. injection Eu as <-. cbn in E. injection E as E. lia.
Qed.

Lemma cam_exists a : (a < 4)%nat -> exists ts ts' cs, cam_ok a ts ts' cs.
Proof.
  intros Ha. destruct US as (UL & U). destruct (nth_error imgs a) as [ts|] eqn:E; [|apply nth_error_None in E; lia].
  destruct (U a ts E) as (B & UT).
  pose proof (match_coords_ok (flat (Z.of_nat a)) sort_x SX ts true) as H.
  pose proof (match_coords_reset (flat (Z.of_nat a)) sort_x SX ts) as HR.
  pose proof (match_coords_usable (flat (Z.of_nat a)) sort_x SX ts (fun t Ht => proj1 (UT t Ht))) as HU.
  pose proof (pnr_nodup (Z.of_nat a) ts) as HD.
  pose proof (nth_matched a) as HM. rewrite E in HM. cbn [option_map] in HM.
  destruct (match_coords _ _ _ _) as (ts' & cs) eqn:EM. cbn [fst snd] in *. destruct H as (HL & HN & HP & _).
  exists ts, ts', cs. unfold cam_ok. unfold counts, flats, imgs'. rewrite map_map, !nth_error_map, HM. cbn [option_map fst snd].
  split; auto. split; auto. split; auto. split; [now rewrite HL|]. split; auto.
  split. { rewrite (Permutation_length HP), map_length. auto. }
  split; auto. split; auto. split; [apply HU|]. split; auto. split; [apply HU|].
  split. { intros t Ht. destruct (UT t Ht) as (_ & S1 & S2 & S3 & S4 & _). auto. }
  split; auto. intros t b Ht. destruct (UT t Ht) as (_ & _ & _ & _ & _ & X). apply X.
Qed.

Lemma lens : length imgs' = 4%nat /\ length flats = 4%nat /\ length counts = 4%nat.
Proof.
  assert (length (matched sort_x flat imgs) = 4%nat).
  { unfold matched. rewrite map_length. unfold enumerate. rewrite combine_length, zrange_length. destruct US as (UL & _). lia. }
  unfold imgs', flats, counts. unfold imgs'. rewrite !map_length. auto.
Qed.

Lemma counts_range n : In n counts -> 1 <= n <= NMAX.
Proof.
  intros Hn. apply In_nth_error in Hn as (a & Ha).
  assert (a < 4)%nat by (destruct lens as (_ & _ & <-); apply nth_error_Some; congruence).
  destruct (cam_exists a H) as (ts & ts' & cs & C). destruct C as (_ & _ & _ & E & _ & _ & _ & _ & _ & _ & _ & _ & B & _).
  rewrite Ha in E. injection E as ->. unfold NMAX. lia.
Qed.

Lemma coords : coords_ok 4 counts flats imgs'.
Proof.
  destruct lens as (L1 & L2 & L3). split; [auto|]. split; [auto|].
  intros a n cs ts Hn Hc Ht.
  assert (a < 4)%nat by (rewrite <- L3; apply nth_error_Some; congruence).
  destruct (cam_exists a H) as (ts0 & ts' & cs' & C).
  destruct C as (_ & E1 & E2 & E3 & E4 & E5 & _ & _ & _ & E6 & E7 & _).
  rewrite Hn in E3. injection E3 as ->. rewrite Hc in E2. injection E2 as <-. rewrite Ht in E1. injection E1 as <-.
  split; [lia|]. split; [lia|]. split; auto. intros c Hc'. specialize (E7 c Hc'). lia.
Qed.

Lemma pyget_some {A} (l : list A) a x : nth_error l a = Some x -> pyget l (Z.of_nat a) = Ok x.
Proof. intros H. apply pyget_nonneg; [lia|]. rewrite Nat2Z.id. auto. Qed.

(** one call of the candidate search *)
Lemma pair_eval a b i ts ts' cs tsb tsb' csb c : cam_ok a ts ts' cs -> cam_ok b tsb tsb' csb -> nth_error cs i = Some c ->
  exists k t xa ya xb yb, nth_error ts k = Some t /\ c_pnr c = Z.of_nat k /\ (c_x c, c_y c) = flat (Z.of_nat a) (t_x t) (t_y t) /\
    epi (Z.of_nat a) (Z.of_nat b) (c_x c) (c_y c) = Ok (xa, ya, xb, yb) /\
    pair_cands epi vp sens counts flats imgs' (Z.of_nat a) (Z.of_nat b) (Z.of_nat i) =
      find_candidate csb tsb' (Z.of_nat (length csb)) xa ya xb yb (look t) vp (sens (Z.of_nat b)).
Proof.
  intros Ca Cb Hi.
  destruct Ca as (A1 & A2 & A3 & A4 & A5 & A6 & A7 & A8 & A9 & A10 & A11 & A12 & A13 & A14).
  destruct Cb as (B1 & B2 & B3 & B4 & B5 & B6 & _).
  destruct (proj1 (A8 c) (nth_error_In _ _ Hi)) as (k & t & Hk & Hp & Hf).
  destruct (A14 t (Z.of_nat b) (nth_error_In _ _ Hk)) as ((((xa & ya) & xb) & yb) & He).
  rewrite <- Hf in He. cbn [fst snd] in He.
  exists k, t, xa, ya, xb, yb. split; auto. split; auto. split; auto. split; auto.
  unfold pair_cands. rewrite (pyget_some _ _ _ A3). cbn [bind]. rewrite (pyget_some _ _ _ Hi). cbn [bind].
  rewrite He. cbn [bind]. rewrite (pyget_some _ _ _ B3). cbn [bind]. rewrite (pyget_some _ _ _ B2). cbn [bind].
  rewrite (pyget_some _ _ _ B4). cbn [bind]. rewrite (pyget_some _ _ _ A2). cbn [bind].
  rewrite Hp, (pyget_some _ _ _ (A7 k t Hk)). cbn [bind]. rewrite B6. reflexivity.
Qed.

Lemma shapes_fit a b t ts ts' cs tsb tsb' csb : cam_ok a ts ts' cs -> cam_ok b tsb tsb' csb -> In t ts -> shapes_ok (look t) tsb'.
Proof.
  intros Ca Cb Ht. destruct Ca as (_ & _ & _ & _ & _ & _ & _ & _ & _ & _ & _ & A12 & _).
  destruct Cb as (_ & _ & _ & _ & B5 & _ & B7 & _ & _ & _ & _ & B12 & _).
  destruct (A12 t Ht) as (S1 & S2 & S3 & S4). unfold shapes_ok, look. cbn [sh_n sh_nx sh_ny sh_sumg].
  split; auto. split; auto. split; auto. split; auto. intros u Hu. apply In_nth_error in Hu as (k & Hk).
  assert (k < length tsb)%nat by (rewrite <- B5; apply nth_error_Some; congruence).
  destruct (nth_error tsb k) as [u'|] eqn:E; [|apply nth_error_None in E; lia].
  rewrite (B7 k u' E) in Hk. injection Hk as <-. cbn. apply B12. eapply nth_error_In; eauto.
Qed.

Let cands := pair_cands epi vp sens counts flats imgs'.

Lemma cands_fit : cands_ok cands 4 counts.
Proof.
  intros a b i na nb Hab Hb Ha Hnb Hi.
  destruct (cam_exists (Z.to_nat a) ltac:(lia)) as (ts & ts' & cs & Ca).
  destruct (cam_exists (Z.to_nat b) ltac:(lia)) as (tsb & tsb' & csb & Cb).
  pose proof Ca as (A1 & A2 & A3 & A4 & A5 & A6 & _).
  pose proof Cb as (B1 & B2 & B3 & B4 & B5 & B6 & B7 & B8 & B9 & B10 & B11 & _).
  rewrite Ha in A4. injection A4 as ->. rewrite Hnb in B4. injection B4 as ->.
  destruct (nth_error cs (Z.to_nat i)) as [c|] eqn:Ec; [|apply nth_error_None in Ec; lia].
  destruct (pair_eval _ _ _ _ _ _ _ _ _ c Ca Cb Ec) as (k & t & xa & ya & xb & yb & Hk & Hp & Hf & He & E).
  rewrite !Z2Nat.id in E by lia. unfold cands. rewrite E.
  destruct (find_candidate_sound csb tsb' _ xa ya xb yb (look t) vp (sens b) eq_refl
     (shapes_fit _ _ _ _ _ _ _ _ _ Ca Cb (nth_error_In _ _ Hk)) B11 B9) as (l & E' & L & SS & HI).
  exists l. split; auto. split; auto. split.
  - intros ((j & x) & d) Hin. cbn [fst]. destruct (HI j x d Hin) as (? & _). lia.
  - apply StronglySorted_lt_NoDup. exact SS.
Qed.

Lemma max_count_ge n : In n counts -> n <= max_count counts.
Proof. unfold max_count. induction counts as [|m l IH]; [easy|]. intros [->|H]; cbn [fold_right]; [lia|specialize (IH H); lia]. Qed.

(** the target number at position k of camera a's sorted list; -1 for no target *)
Definition pn (a k : Z) : Z :=
  if k <? 0 then -1 else
  match nth_error flats (Z.to_nat a) with
  | Some cs => match nth_error cs (Z.to_nat k) with Some c => c_pnr c | None => -1 end
  | None => -1
  end.

Lemma compat_entry a b p q k ts ts' cs tsb tsb' csb t c cb xa ya xb yb x d :
  cam_ok a ts ts' cs -> cam_ok b tsb tsb' csb ->
  nth_error ts k = Some t -> p = Z.of_nat k -> (c_x c, c_y c) = flat (Z.of_nat a) (t_x t) (t_y t) ->
  epi (Z.of_nat a) (Z.of_nat b) (c_x c) (c_y c) = Ok (xa, ya, xb, yb) ->
  In cb csb -> c_pnr cb = q ->
  (compatible flat epi vp sens imgs (Z.of_nat a) (Z.of_nat b) p q x d <->
   let g := segment_of xa ya xb yb in
   off_sensor g (sens (Z.of_nat b)) = false /\
   exists u, nth_error tsb' (Z.to_nat q) = Some u /\ qualifies vp (look t) g cb u = true /\ x = score (look t) u /\ d = dist_to g cb).
Proof.
  intros Ca Cb Hk -> Hf He Hcb Hq.
  destruct Ca as (A1 & _). pose proof Cb as (B1 & B2 & B3 & B4 & B5 & B6 & B7 & B8 & B9 & B10 & B11 & _).
  destruct (proj1 (B8 cb) Hcb) as (kb & tb & Hkb & Hpb & Hfb).
  assert (Eq : q = Z.of_nat kb) by lia. subst q.
  assert (Ecb : spot flat (Z.of_nat b) (Z.of_nat kb) tb = cb).
  { unfold spot. rewrite <- Hfb. cbn [fst snd]. destruct cb as [pb xb0 yb0]. cbn in *. now subst. }
  assert (Tb : target_at imgs (Z.of_nat b) (Z.of_nat kb) = Some tb).
  { unfold target_at. rewrite !Nat2Z.id, B1. auto. }
  assert (Ta : target_at imgs (Z.of_nat a) (Z.of_nat k) = Some t).
  { unfold target_at. rewrite !Nat2Z.id, A1. auto. }
  assert (Q : forall sh g, qualifies vp sh g cb (set_pnr tb (Z.of_nat kb)) = qualifies vp sh g cb tb) by reflexivity.
  rewrite Hpb, Nat2Z.id, (B7 kb tb Hkb).
  unfold compatible. rewrite Ta, Tb. split.
  - intros (_ & _ & ta & tb0 & xa0 & ya0 & xb0 & yb0 & Ea & Eb & Ee & G).
    injection Ea as <-. injection Eb as <-. rewrite <- Hf in Ee. cbn [fst snd] in Ee. rewrite He in Ee.
    injection Ee as <- <- <- <-. rewrite Ecb in G. destruct G as (G1 & G2 & G3 & G4).
    cbn zeta. split; auto. exists (set_pnr tb (Z.of_nat kb)). auto.
  - intros (G1 & u & Hu & G2 & G3 & G4). injection Hu as <-. split; [lia|]. split; [lia|].
    exists t, tb, xa, ya, xb, yb. split; auto. split; auto. rewrite <- Hf. cbn [fst snd]. split; auto.
    rewrite Ecb. auto.
Qed.

(** an adjacency edge found by match_pairs is a compatible pair of targets *)
Lemma edge_compat cl a b i j x d : 0 <= a < b -> b < 4 ->
  (forall a b i na, 0 <= a < b -> b < 4 -> nth_error counts (Z.to_nat a) = Some na -> 0 <= i < na ->
       forall j x d, edge cl a b i j x d <-> exists l, cands a b i = Ok l /\ In (j, x, d) l) ->
  (exists na, nth_error counts (Z.to_nat a) = Some na /\ 0 <= i < na) ->
  edge cl a b i j x d ->
  (exists nb, nth_error counts (Z.to_nat b) = Some nb /\ 0 <= j < nb) /\
  compatible flat epi vp sens imgs a b (pn a i) (pn b j) x d.
Proof.
  intros Hab Hb HE (na & Ha & Hi) Hedge.
  destruct (proj1 (HE a b i na Hab Hb Ha Hi j x d) Hedge) as (l & El & Hin).
  destruct (cam_exists (Z.to_nat a) ltac:(lia)) as (ts & ts' & cs & Ca).
  destruct (cam_exists (Z.to_nat b) ltac:(lia)) as (tsb & tsb' & csb & Cb).
  pose proof Ca as (A1 & A2 & A3 & A4 & A5 & A6 & A7 & A8 & _).
  pose proof Cb as (B1 & B2 & B3 & B4 & B5 & B6 & B7 & B8 & B9 & B10 & B11 & _).
  rewrite Ha in A4. injection A4 as ->.
  destruct (nth_error cs (Z.to_nat i)) as [c|] eqn:Ec; [|apply nth_error_None in Ec; lia].
  destruct (pair_eval _ _ _ _ _ _ _ _ _ c Ca Cb Ec) as (k & t & xa & ya & xb & yb & Hk & Hp & Hf & He & E).
  rewrite !Z2Nat.id in E by lia. unfold cands in El. rewrite E in El.
  destruct (find_candidate_sound csb tsb' _ xa ya xb yb (look t) vp (sens b) eq_refl
     (shapes_fit _ _ _ _ _ _ _ _ _ Ca Cb (nth_error_In _ _ Hk)) B11 B9) as (l' & E' & L & SS & HI).
  rewrite El in E'. injection E' as <-. destruct (HI j x d Hin) as (Hj & Hoff & cb & u & Hcb & Hu & G1 & G2 & G3).
  split. { exists (Z.of_nat (length tsb)). split; auto. lia. }
  assert (Pa : pn a i = Z.of_nat k). { unfold pn. destruct (i <? 0) eqn:X; [lia|]. rewrite A3, Ec. auto. }
  assert (Pb : pn b j = c_pnr cb). { unfold pn. destruct (j <? 0) eqn:X; [lia|]. rewrite B3, Hcb. auto. }
  rewrite Pb, Pa.
  pose proof (compat_entry (Z.to_nat a) (Z.to_nat b) (Z.of_nat k) (c_pnr cb) k ts ts' cs tsb tsb' csb t c cb xa ya xb yb x d
     Ca Cb Hk eq_refl Hf He (nth_error_In _ _ Hcb) eq_refl) as X.
  rewrite !Z2Nat.id in X by lia. apply X. split; auto. exists u. auto.
Qed.

(** conversely, when the start of the search is early enough and there are at most 40 candidates *)
Lemma compat_edge cl a b p q x d : 0 <= a < b -> b < 4 ->
  (forall a b i na, 0 <= a < b -> b < 4 -> nth_error counts (Z.to_nat a) = Some na -> 0 <= i < na ->
       forall j x d, edge cl a b i j x d <-> exists l, cands a b i = Ok l /\ In (j, x, d) l) ->
  (forall ts, nth_error imgs (Z.to_nat b) = Some ts -> popcount (Z.of_nat (length ts) / 2) <= 11) ->
  (forall l, NoDup l -> (forall q, In q l -> exists x d, compatible flat epi vp sens imgs a b p q x d) -> (length l <= 40)%nat) ->
  compatible flat epi vp sens imgs a b p q x d ->
  exists i j na nb, nth_error counts (Z.to_nat a) = Some na /\ 0 <= i < na /\ nth_error counts (Z.to_nat b) = Some nb /\ 0 <= j < nb /\
    pn a i = p /\ pn b j = q /\ edge cl a b i j x d.
Proof.
  intros Hab Hb HE HP H40 Hc.
  destruct (cam_exists (Z.to_nat a) ltac:(lia)) as (ts & ts' & cs & Ca).
  destruct (cam_exists (Z.to_nat b) ltac:(lia)) as (tsb & tsb' & csb & Cb).
  pose proof Ca as (A1 & A2 & A3 & A4 & A5 & A6 & A7 & A8 & _).
  pose proof Cb as (B1 & B2 & B3 & B4 & B5 & B6 & B7 & B8 & B9 & B10 & B11 & _).
  pose proof Hc as (Hp0 & Hq0 & ta & tb & xa0 & ya0 & xb0 & yb0 & Ta & Tb & Ee & G).
  unfold target_at in Ta, Tb. rewrite A1 in Ta. rewrite B1 in Tb.
  assert (IA : exists c i, nth_error cs i = Some c /\ c_pnr c = p).
  { destruct (flat a (t_x ta) (t_y ta)) as [fx fy] eqn:EF.
    assert (In (mk_coord2d p fx fy) cs).
    { apply A8. exists (Z.to_nat p), ta. split; auto. cbn. split; [lia|]. rewrite Z2Nat.id by lia. auto. }
    apply In_nth_error in H as (i & Hi). exists (mk_coord2d p fx fy), i. auto. }
  assert (IB : exists c j, nth_error csb j = Some c /\ c_pnr c = q).
  { destruct (flat b (t_x tb) (t_y tb)) as [fx fy] eqn:EF.
    assert (In (mk_coord2d q fx fy) csb).
    { apply B8. exists (Z.to_nat q), tb. split; auto. cbn. split; [lia|]. rewrite Z2Nat.id by lia. auto. }
    apply In_nth_error in H as (i & Hi). exists (mk_coord2d q fx fy), i. auto. }
  destruct IA as (c & i & Ec & Pc). destruct IB as (cb & j & Ecb & Pcb).
  assert (Li : (i < length cs)%nat) by (apply nth_error_Some; congruence).
  assert (Lj : (j < length csb)%nat) by (apply nth_error_Some; congruence).
  destruct (pair_eval _ _ _ _ _ _ _ _ _ c Ca Cb Ec) as (k & t & xa & ya & xb & yb & Hk & Hp & Hf & He & E).
  rewrite !Z2Nat.id in E by lia.
  pose proof (find_candidate_exact csb tsb' _ xa ya xb yb (look t) vp (sens b) eq_refl
     (shapes_fit _ _ _ _ _ _ _ _ _ Ca Cb (nth_error_In _ _ Hk)) B11 B9) as X.
  rewrite B6 in X. specialize (X (HP tsb B1)). cbv zeta in X.
  assert (CE : forall cb, In cb csb -> forall x d, compatible flat epi vp sens imgs a b p (c_pnr cb) x d <->
    let g := segment_of xa ya xb yb in
    off_sensor g (sens b) = false /\
    exists u, nth_error tsb' (Z.to_nat (c_pnr cb)) = Some u /\ qualifies vp (look t) g cb u = true /\ x = score (look t) u /\ d = dist_to g cb).
  { intros cb' Hcb' x' d'.
    pose proof (compat_entry (Z.to_nat a) (Z.to_nat b) p (c_pnr cb') k ts ts' cs tsb tsb' csb t c cb' xa ya xb yb x' d'
     Ca Cb Hk ltac:(lia) Hf He Hcb' eq_refl) as Y. rewrite !Z2Nat.id in Y by lia. exact Y. }
  rewrite <- Pcb in Hc. pose proof (proj1 (CE cb (nth_error_In _ _ Ecb) x d) Hc) as (Hoff & u & Hu & G1 & G2 & G3).
  set (g := segment_of xa ya xb yb) in *. cbn zeta in CE. rewrite Hoff in X.
  assert (LM : (length (matching vp (look t) g tsb' 0 csb) <= 40)%nat).
  { set (M := matching vp (look t) g tsb' 0 csb).
    set (f := fun e : Z * f64 * f64 => pn b (fst (fst e))).
    rewrite <- (map_length f). apply H40.
    - assert (ND : NoDup (map (fun x => fst (fst x)) M)).
      { apply StronglySorted_lt_NoDup. apply (matching_sorted vp (look t) g tsb' 0 csb). }
      assert (EM : map f M = map (pn b) (map (fun x => fst (fst x)) M)) by (rewrite map_map; reflexivity).
      rewrite EM. apply NoDup_map_on; auto.
      intros z z' Hz Hz' Ez.
      apply in_map_iff in Hz as (((z0 & x1) & d1) & <- & Hz). apply in_map_iff in Hz' as (((z0' & x1') & d1') & <- & Hz').
      apply matching_In in Hz as (n1 & c1 & t1 & Z1 & N1 & _). apply matching_In in Hz' as (n2 & c2 & t2 & Z2 & N2 & _).
      cbn [fst] in *. subst z0 z0'. unfold pn in Ez. rewrite B3 in Ez.
      destruct (0 + Z.of_nat n1 <? 0) eqn:Y1; [lia|]. destruct (0 + Z.of_nat n2 <? 0) eqn:Y2; [lia|].
      rewrite !Z.add_0_l, !Nat2Z.id, N1, N2 in Ez. f_equal. f_equal.
      apply (proj1 (NoDup_nth_error (map c_pnr csb)) B10); [rewrite map_length; apply nth_error_Some; congruence|].
      rewrite !nth_error_map, N1, N2. cbn. now f_equal.
    - intros q' Hq'. apply in_map_iff in Hq' as (((z0 & x1) & d1) & <- & Hz).
      apply matching_In in Hz as (n1 & c1 & t1 & Z1 & N1 & T1 & Q1 & S1 & D1). unfold f. cbn [fst]. subst z0.
      unfold pn. rewrite B3. replace (0 + Z.of_nat n1 <? 0) with false by (symmetry; apply Z.ltb_ge; apply Z.add_nonneg_nonneg; [lia|apply Nat2Z.is_nonneg]). rewrite Z.add_0_l, Nat2Z.id, N1.
      exists x1, d1. apply (CE c1 (nth_error_In _ _ N1)). split; auto. exists t1. auto. }
  rewrite firstn_all2 in X by exact LM.
  exists (Z.of_nat i), (Z.of_nat j), (Z.of_nat (length ts)), (Z.of_nat (length tsb)).
  split; auto. split; [lia|]. split; auto. split; [lia|].
  split. { unfold pn. destruct (Z.of_nat i <? 0) eqn:Y; [lia|]. rewrite A3, Nat2Z.id, Ec. auto. }
  split. { unfold pn. destruct (Z.of_nat j <? 0) eqn:Y; [lia|]. rewrite B3, Nat2Z.id, Ecb. auto. }
  apply (HE a b (Z.of_nat i) (Z.of_nat (length ts)) Hab Hb A4 ltac:(lia)).
  exists (matching vp (look t) g tsb' 0 csb). split. { unfold cands. rewrite E, B6. exact X. }
  apply matching_In. exists j, cb, u. split; [lia|]. auto.
Qed.
End Chain.
