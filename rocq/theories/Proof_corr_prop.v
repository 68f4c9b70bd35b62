From Coq Require Import Permutation Sorted.
From Verif Require Import Base F64 Model_corr Spec_corr Proof_corr_take Proof_corr_loops Proof_corr_three Proof_corr_pairs Proof_corr_all Proof_corr_main Proof_corr_pm.
Local Open Scope Z_scope.

(** ---- a concrete sort satisfying [sorts] ---- *)
Fixpoint insert (x : ntupel) (l : list ntupel) : list ntupel :=
  match l with
  | [] => [x]
  | y :: t => if np_le (tcorr x) (tcorr y) then x :: l else y :: insert x t
  end.
Fixpoint isort (l : list ntupel) : list ntupel :=
  match l with [] => [] | x :: t => insert x (isort t) end.

Lemma np_le_total a b : np_le a b = true \/ np_le b a = true.
Proof.
  unfold np_le. destruct (is_nan b) eqn:Eb; [left; apply orb_true_r|].
  destruct (is_nan a) eqn:Ea; [right; apply orb_true_r|].
  destruct (fle_total a b Ea Eb) as [-> | ->]; simpl; auto.
Qed.
Lemma np_le_trans a b c : np_le a b = true -> np_le b c = true -> np_le a c = true.
Proof.
  unfold np_le. rewrite !orb_true_iff. intros [H1|H1] [H2|H2]; auto.
  - left. eapply fle_trans; eauto.
  - apply fle_not_nan in H2. destruct H2; congruence.
Qed.
Lemma insert_perm x l : Permutation (insert x l) (x :: l).
Proof.
  induction l as [|y l IH]; simpl; auto. destruct (np_le _ _); auto.
  rewrite IH. apply perm_swap.
Qed.
Lemma isort_sorts : sorts isort.
Proof.
  intros l. induction l as [|x l (IH1 & IH2)]; simpl; [split; constructor|].
  split; [rewrite insert_perm; auto|].
  clear IH1. induction IH2 as [|y t Ht IH Hall]; simpl; [repeat constructor|].
  destruct (np_le (tcorr x) (tcorr y)) eqn:E.
  - constructor; [constructor; auto|]. constructor; auto.
    rewrite Forall_forall in *. intros z Hz. eapply np_le_trans; eauto.
  - constructor; auto. rewrite Forall_forall in *. intros z Hz.
    apply (Permutation_in _ (insert_perm x t)) in Hz. destruct Hz as [<-|Hz]; auto.
    destruct (np_le_total (tcorr x) (tcorr y)); congruence.
Qed.

(** ---- C01, C02 ---- *)
Lemma select_In {A} mask (l : list A) x : In x (select mask l) ->
  exists i, nth_error mask i = Some true /\ nth_error l i = Some x.
Proof.
  revert l; induction mask as [|b mask IH]; intros [|y l] H; simpl in H; try destruct b; try contradiction.
  - simpl in H. destruct H as [<-|H]; [exists O; auto|]. apply IH in H as (i & ? & ?). exists (S i); auto.
  - apply IH in H as (i & ? & ?). exists (S i); auto.
Qed.
Lemma select_index {A} mask (l : list A) i x : nth_error mask i = Some true -> nth_error l i = Some x ->
  exists j, nth_error (select mask l) j = Some x.
Proof.
  intros H1 H2. apply In_nth_error.
  revert l i H1 H2; induction mask as [|b mask IH]; intros [|y l] [|i] H1 H2; simpl in *; try discriminate.
  - inversion H1; inversion H2; subst. simpl; auto.
  - destruct b; simpl; eauto.
Qed.
Lemma select_desc mask l : descending l -> descending (select mask l).
Proof.
  revert mask; induction l as [|x l IH]; intros [|b mask] H i j a c Hij Ha Hc; simpl in *;
    try (destruct b); try (destruct i; discriminate); try (destruct j; discriminate).
  - destruct j as [|j]; [lia|]. simpl in Hc. destruct i as [|i]; simpl in Ha.
    + inversion Ha; subst. apply nth_error_In in Hc. apply select_In in Hc as (k & _ & Hk).
      apply (H O (S k) a c); auto; lia.
    + refine (IH mask _ i j a c _ Ha Hc); [|lia].
      intros i' j' a' c' Hlt A C. apply (H (S i') (S j') a' c'); auto; lia.
  - refine (IH mask _ i j a c Hij Ha Hc).
    intros i' j' a' c' Hlt A C. apply (H (S i') (S j') a' c'); auto; lia.
Qed.

Lemma take_best_disjoint srt src dst nc tus n src' dst' tus' :
  sorts srt -> marks_ok tus ->
  take_best_candidates srt src dst nc tus = Ok (n, src', dst', tus') ->
  0 <= n <= Z.of_nat (length dst) /\ length dst' = length dst /\
  skipn (Z.to_nat n) dst' = skipn (Z.to_nat n) dst /\
  disjoint_cliques nc (firstn (Z.to_nat n) dst') /\
  (forall a cam k, In a (firstn (Z.to_nat n) dst') -> member nc a cam k -> ~ used tus cam k) /\
  (forall cam k, used tus' cam k <-> used tus cam k \/ exists a, In a (firstn (Z.to_nat n) dst') /\ member nc a cam k).
Proof.
  intros Hs Hm H. destruct (take_best_spec _ _ _ _ _ _ _ _ _ Hs Hm H) as (mask & R1 & R2 & R3 & R4 & R5 & R6 & R7 & R8 & R9 & R10 & R11 & R12 & R13 & R14 & R15).
  rewrite R5. split; [lia|]. split; [exact R8|]. split; [exact R7|]. split; [exact R14|]. split; [exact R13|exact R12].
Qed.

Lemma take_best_greedy srt src dst nc tus n src' dst' tus' :
  sorts srt -> marks_ok tus ->
  take_best_candidates srt src dst nc tus = Ok (n, src', dst', tus') ->
  let taken := firstn (Z.to_nat n) dst' in
  descending taken /\ Z.of_nat (length taken) = n /\ Permutation src' src /\
  exists mask, length mask = length src' /\ taken = select mask src' /\
    forall i c, nth_error src' i = Some c -> nth_error mask i = Some false ->
      (exists cam k, member nc c cam k /\ used tus cam k) \/
      exists b, In b taken /\ clash nc c b /\ np_le (tcorr c) (tcorr b) = true.
Proof.
  intros Hs Hm H. destruct (take_best_spec _ _ _ _ _ _ _ _ _ Hs Hm H) as (mask & R1 & R2 & R3 & R4 & R5 & R6 & R7 & R8 & R9 & R10 & R11 & R12 & R13 & R14 & R15).
  cbv zeta. rewrite R5. split; [apply select_desc; auto|]. split; [lia|]. split; auto.
  exists mask. split; auto. split; auto. intros i c Hc Hf.
  destruct (R15 i c Hc Hf) as [?|(j & b & Hj & Mj & Nj & Cb)]; auto.
  right. exists b. split.
  - destruct (select_index _ _ _ _ Mj Nj) as (q & Hq). eauto using nth_error_In.
  - split; auto. apply (R2 j i b c); auto.
Qed.

Lemma take_best_total srt src dst nc tus :
  sorts srt -> 0 <= nc -> marks_ok tus -> table_dims nc tus ->
  (forall c, In c src -> has_member nc c /\ fits nc c) ->
  nc * NMAX <= Z.of_nat (length dst) ->
  exists n src' dst' tus', take_best_candidates srt src dst nc tus = Ok (n, src', dst', tus').
Proof.
  intros Hs Hnc Hm Ht Hc Hroom. unfold take_best_candidates.
  destruct (take_loop_total nc (rev (srt src)) 0 dst tus []) as (r & Hr); auto; try lia.
  - intros c H. apply Hc. apply in_rev in H. eapply Permutation_in; [apply (proj1 (Hs src))|exact H].
  - intros c [].
  - intros [|i] j a b _ H; discriminate.
  - intros a cam k [].
  - rewrite Hr. cbn [bind]. destruct r as [[n d] t]. eauto.
Qed.

(** ---- C03 ---- *)
Lemma corr4_tnr srt cl counts corrmin flag corrected targets :
  sorts srt -> wf_adj 4 counts cl -> distinct_cands cl ->
  (forall n, In n counts -> 1 <= n <= NMAX) ->
  coords_ok 4 counts corrected targets ->
  exists con tg q t p,
    correspondences_from srt NMAX cl counts corrmin 4 flag corrected targets [0; 0; 0; 0] =
      Ok (con, [q; t; p; q + t + p], tg) /\
    0 <= q /\ 0 <= t /\ 0 <= p /\ q + t + p <= Z.of_nat (length con) /\
    let cliques := firstn (Z.to_nat (q + t + p)) con in
    disjoint_cliques 4 cliques /\
    (forall c, In c cliques -> in_counts 4 counts c) /\
    length tg = length targets /\
    forall cam k, 0 <= cam -> 0 <= k ->
      match target_at targets cam k with
      | None => target_at tg cam k = None
      | Some old =>
         (exists i, i < q + t + p /\ in_clique 4 cliques corrected i cam k /\
            (forall j, in_clique 4 cliques corrected j cam k -> j = i) /\
            target_at tg cam k = Some (set_tnr old i)) \/
         ((forall i, ~ in_clique 4 cliques corrected i cam k) /\ target_at tg cam k = Some old)
      end.
Proof.
  intros Hs W HD HN Hco.
  destruct (corr4_main srt cl counts corrmin flag corrected targets Hs W HD HN Hco) as
    (con & tg & Q & T & P & E & Hf & Hl & Hdis & Hin & _ & _ & _ & _ & _ & _ & _ & _ & _ & Ltg & Hst).
  exists con, tg, (Z.of_nat (length Q)), (Z.of_nat (length T)), (Z.of_nat (length P)).
  assert (Es : Z.of_nat (length Q) + Z.of_nat (length T) + Z.of_nat (length P) = Z.of_nat (length (Q ++ T ++ P)))
    by (rewrite !app_length; lia).
  rewrite Es. split; [exact E|]. split; [lia|]. split; [lia|]. split; [lia|]. split; [lia|].
  cbv zeta. rewrite Nat2Z.id, Hf. split; auto. split; auto. split; auto.
  intros cam k Hc Hk. specialize (Hst cam k Hc Hk).
  assert (Hlt : forall i, in_clique 4 (Q ++ T ++ P) corrected i cam k -> 0 <= i < Z.of_nat (length (Q ++ T ++ P))).
  { intros i (Hi & t & _ & _ & _ & Hn & _). assert (Z.to_nat i < length (Q ++ T ++ P))%nat by (apply nth_error_Some; congruence). lia. }
  assert (Hcam : forall i, in_clique 4 (Q ++ T ++ P) corrected i cam k -> 0 <= cam < 4).
  { intros i (_ & t & kk & row & c & _ & Hm & _). apply Hm. }
  destruct (target_at targets cam k) as [old|]; auto.
  destruct Hst as [(i & (Hd & Hi) & Ht)|(Hno & Ht)].
  - left. exists i. split; [apply Hlt; auto|]. split; auto. split; auto.
    intros j Hj. eapply in_clique_unique; eauto. apply W.
  - right. split; auto. intros i Hi. apply (Hno i). split; auto.
    apply in_prod; apply In_zrange; eauto.
Qed.

(** ---- C04 ---- *)
Lemma corr4_support srt cl counts corrmin flag corrected targets :
  sorts srt -> wf_adj 4 counts cl -> distinct_cands cl ->
  (forall n, In n counts -> 1 <= n <= NMAX) ->
  coords_ok 4 counts corrected targets ->
  exists con tg Q T P,
    correspondences_from srt NMAX cl counts corrmin 4 flag corrected targets [0; 0; 0; 0] =
      Ok (con, [Z.of_nat (length Q); Z.of_nat (length T); Z.of_nat (length P); Z.of_nat (length (Q ++ T ++ P))], tg) /\
    firstn (length (Q ++ T ++ P)) con = Q ++ T ++ P /\
    descending Q /\ descending T /\ descending P /\
    (forall n0, nth_error counts 0 = Some n0 ->
      (forall t, In t Q -> is_quad cl n0 corrmin t \/ t = blank) /\
      ((forall l, NoDup l -> (forall t, In t l -> is_quad cl n0 corrmin t) -> Z.of_nat (length l) <= 4 * NMAX) ->
       forall t, is_quad cl n0 corrmin t -> In t Q \/
        exists b, In b Q /\ clash 4 t b /\ np_le (tcorr t) (tcorr b) = true)) /\
    (forall t, In t T -> exists tus, (forall cam k, used tus cam k <-> exists a, In a Q /\ member 4 a cam k) /\
        is_triplet_padded cl 4 counts tus corrmin t) /\
    (forall t, In t P -> exists tus, (forall cam k, used tus cam k <-> exists a, In a (Q ++ T) /\ member 4 a cam k) /\
        is_pair cl 4 counts tus corrmin t) /\
    (flag <> 0 -> T = [] /\ P = []) /\
    (flag = 0 -> forall tus, (forall cam k, used tus cam k <-> exists a, In a Q /\ member 4 a cam k) ->
      (forall l, NoDup l -> (forall t, In t l -> is_triplet_padded cl 4 counts tus corrmin t) -> Z.of_nat (length l) <= 4 * NMAX) ->
      forall t, is_triplet_padded cl 4 counts tus corrmin t -> In t T \/
        exists b, In b T /\ clash 4 t b /\ np_le (tcorr t) (tcorr b) = true) /\
    (flag = 0 -> forall tus, (forall cam k, used tus cam k <-> exists a, In a (Q ++ T) /\ member 4 a cam k) ->
      (forall l, NoDup l -> (forall t, In t l -> is_pair cl 4 counts tus corrmin t) -> Z.of_nat (length l) <= 4 * NMAX) ->
      forall t, is_pair cl 4 counts tus corrmin t -> In t P \/
        exists b, In b P /\ clash 4 t b /\ np_le (tcorr t) (tcorr b) = true).
Proof.
  intros Hs W HD HN Hco.
  destruct (corr4_main srt cl counts corrmin flag corrected targets Hs W HD HN Hco) as
    (con & tg & Q & T & P & E & Hf & Hl & Hdis & Hin & D1 & D2 & D3 & HQ & HT & HP & HF & HC1 & HC2 & _).
  exists con, tg, Q, T, P. auto 14.
Qed.

(** with no quadruplet at all, the clique (0,0,0,0) is returned *)
Lemma corr4_spurious srt cl counts corrmin flag corrected targets :
  sorts srt -> wf_adj 4 counts cl -> distinct_cands cl ->
  (forall n, In n counts -> 1 <= n <= NMAX) ->
  coords_ok 4 counts corrected targets ->
  (forall a b i j x d, ~ edge cl a b i j x d) ->
  exists con tg,
    correspondences_from srt NMAX cl counts corrmin 4 flag corrected targets [0; 0; 0; 0] =
      Ok (con, [1; 0; 0; 1], tg) /\
    nth_error con 0 = Some blank.
Proof.
  intros Hs W HD HN Hco Hno.
  destruct (counts4 counts (proj1 W)) as (n0 & n1 & n2 & n3 & Ec).
  assert (N0 : nth_error counts 0 = Some n0) by (rewrite Ec; reflexivity).
  assert (Hnq : forall t, ~ is_quad cl n0 corrmin t).
  { intros t (p1 & p2 & p3 & p4 & x12 & d12 & x13 & d13 & x14 & d14 & x23 & d23 & x24 & d24 & x34 & d34 & _ & E & _).
    eapply Hno; eauto. }
  destruct (corr4_main srt cl counts corrmin flag corrected targets Hs W HD HN Hco) as
    (con & tg & Q & T & P & E & Hf & Hl & Hdis & Hin & _ & _ & _ & HQ & HT & HP & _ & _).
  destruct T as [|t T].
  2:{ destruct (HT t) as (tus & _ & H); [simpl; auto|].
      destruct H as (i1 & i2 & i3 & m1 & p1 & p2 & p3 & x12 & d12 & x13 & d13 & x23 & d23 & _ & _ & _ & _ & _ & _ & _ & _ & _ & E1 & _).
      exfalso; eapply Hno; eauto. }
  destruct P as [|t P].
  2:{ destruct (HP t) as (tus & _ & H); [simpl; auto|].
      destruct H as (i1 & i2 & m1 & p1 & p2 & x & d & _ & _ & _ & _ & _ & _ & _ & E1 & _).
      exfalso; eapply Hno; eauto. }
  assert (EQ : Q ++ [] ++ [] = Q) by (cbn; apply app_nil_r). rewrite EQ in *.
  change (length (@nil ntupel)) with O in E. change (Z.of_nat 0) with 0 in E.
  destruct (HQ n0 N0) as (HQ1 & _).
  assert (HB : forall t, In t Q -> t = blank).
  { intros t Ht. destruct (HQ1 t Ht); auto. exfalso. eapply Hnq; eauto. }
  destruct (corr4_phase1 srt cl counts corrmin n0 Hs W HD ltac:(intros n Hn; specialize (HN n Hn); lia) N0)
    as (con1 & con' & tim' & Q' & sc & n & F3 & P1 & I1 & B1 & D1 & Q1 & HB' & Q2 & S1).
  assert (Hq' : In blank Q').
  { destruct HB' as [?|(b & Hb & _)]; auto.
    - intros [|t l] _ Hl'; [simpl; unfold NMAX; lia|]. exfalso. eapply Hnq. apply Hl'. simpl; auto.
    - destruct (Q1 b Hb) as [?| ->]; auto. exfalso. eapply Hnq; eauto. }
  assert (HQQ : length Q = length Q').
  { unfold correspondences_from in E.
    rewrite (eq_refl : (4 =? 4) = true) in E. cbn [orb andb] in E.
    change {| tp := repeat 0 4; tcorr := fzero |} with blank in E.
    assert (E0 : pyget counts 0 = Ok n0) by (rewrite Ec; reflexivity).
    rewrite E0 in E. cbn [bind] in E. rewrite F3 in E. cbn [bind] in E. rewrite P1 in E. cbn [bind] in E.
    assert (K : forall slot sc n' a b c mc r, 1 <= slot <= 2 -> length mc = 4%nat ->
        phase srt slot 4 (sc, n') (a, b, c, mc) = Ok r -> length (snd r) = 4%nat /\ nth_error (snd r) 0 = nth_error mc 0).
    { clear. intros slot sc n' a b c mc r Hs L H. unfold phase in H.
      apply bind_ok in H as (off & _ & H). apply bind_ok in H as ([[[tk c0] v] tm] & _ & H).
      apply bind_ok in H as (mc1 & H1 & H). apply bind_ok in H as (tot & _ & H). apply bind_ok in H as (mc2 & H2 & H).
      inversion H; subst. apply pyset_ok in H1 as (_ & ->); [|lia]. apply pyset_ok in H2 as (_ & ->); [|lia].
      cbn [snd]. rewrite !upd_length. split; auto.
      rewrite !nth_error_upd_neq by lia. auto. }
    apply bind_ok in E as ([[[c1 c2] c3] mc1] & Ep1 & E).
    apply bind_ok in E as ([[[c4 c5] c6] mc2] & Ep2 & E).
    apply bind_ok in E as (tot & _ & E). apply bind_ok in E as (tg' & _ & E). inversion E; subst.
    assert (K1 : length mc1 = 4%nat /\ nth_error mc1 0 = Some (Z.of_nat (length Q'))).
    { destruct (((flag =? 0)) || (4 =? 3)).
      - apply bind_ok in Ep1 as ([sc1 n1'] & _ & Ep1). apply K in Ep1; [|lia|reflexivity]. cbn [snd] in Ep1.
        destruct Ep1 as (-> & ->). auto.
      - inversion Ep1; subst. auto. }
    assert (K2 : nth_error (Z.of_nat (length Q) :: 0 :: 0 :: Z.of_nat (length Q) :: nil) 0 = Some (Z.of_nat (length Q'))).
    { destruct ((1 <? 4) && (flag =? 0)).
      - apply bind_ok in Ep2 as ([sc1 n1'] & _ & Ep2). apply K in Ep2; [|lia|apply K1].
        change (length (@nil ntupel)) with O in *. cbn [snd] in Ep2.
        destruct Ep2 as (_ & E2). destruct K1 as (_ & E1). rewrite E1 in E2.
        match type of E2 with nth_error ?m _ = _ => exact E2 end.
      - inversion Ep2; subst. apply K1. }
    cbn in K2. inversion K2. lia. }
  assert (L1 : length Q = 1%nat).
  { destruct Q as [|a [|b Q0]]; auto.
    - destruct Q'; [contradiction|discriminate].
    - exfalso. assert (a = blank) by (apply HB; simpl; auto). assert (b = blank) by (apply HB; simpl; auto). subst.
      apply (Hdis 0%nat 1%nat blank blank); auto. exists 0, 0. split; (split; [lia|]); (split; [lia|reflexivity]). }
  destruct Q as [|b [|? ?]]; try discriminate. assert (b = blank) by (apply HB; simpl; auto). subst b.
  exists con, tg. split; [exact E|]. destruct con; [discriminate|]. cbn in Hf. inversion Hf. reflexivity.
Qed.

(** ---- a camera without targets ---- *)
Lemma foldM_raises {S A} (P : S -> Prop) (f : S -> A -> result S) l s x e :
  P s -> (forall s a, In a l -> P s -> f s a = Exn e \/ exists s', f s a = Ok s' /\ P s') ->
  In x l -> (forall s, P s -> f s x = Exn e) -> foldM f l s = Exn e.
Proof.
  revert s; induction l as [|a l IH]; intros s Hs Hstep Hin Hx; [contradiction|]. simpl.
  destruct Hin as [->|Hin]; [rewrite Hx; auto|].
  destruct (Hstep s a) as [-> |(s' & -> & Hs')]; simpl; auto.
  apply IH; auto. intros; apply Hstep; simpl; auto.
Qed.

Definition rows_ok (counts : list Z) (tg : list (list target)) : Prop :=
  length tg = length counts /\
  forall cam n ts, nth_error counts cam = Some n -> nth_error tg cam = Some ts -> length ts = Z.to_nat n.

Lemma corr4_empty_camera srt cl counts corrmin flag corrected targets :
  sorts srt -> wf_adj 4 counts cl -> distinct_cands cl ->
  (forall n, In n counts -> 0 <= n <= NMAX) -> In 0 counts ->
  coords_ok 4 counts corrected targets ->
  correspondences_from srt NMAX cl counts corrmin 4 flag corrected targets [0; 0; 0; 0] = Exn IndexError.
Proof.
  intros Hs W HD HN H0 (L1 & L2 & Hco).
  destruct (counts4 counts (proj1 W)) as (n0 & n1 & n2 & n3 & Ec).
  assert (N0 : nth_error counts 0 = Some n0) by (rewrite Ec; reflexivity).
  destruct (corr4_phases srt cl counts corrmin flag Hs W HD HN) as
    (con & Q & T & P & E & Hpre & Hlen & Hdis & Hall & _ & _ & _ & HQ & _ & _ & _).
  rewrite E.
  assert (Hnq : forall t, ~ is_quad cl n0 corrmin t).
  { intros t Hq. pose proof (quad_in_counts cl counts n0 corrmin t W N0 Hq) as (_ & _ & Hm).
    apply In_nth_error in H0 as (cam & Hcam).
    assert (Hc4 : (cam < 4)%nat).
    { pose proof (proj1 W) as Lc. change (Z.to_nat 4) with 4%nat in Lc. rewrite <- Lc. apply nth_error_Some. congruence. }
    pose proof Hq as Hq0.
    destruct Hq as (p1 & p2 & p3 & p4 & x12 & d12 & x13 & d13 & x14 & d14 & x23 & d23 & x24 & d24 & x34 & d34 &
            Hi & E01 & E02 & E03 & _ & _ & _ & Ht & _).
    rewrite Ec in Hcam. 
    pose proof (edge_range 4 counts cl 0 1 p1 p2 x12 d12 n0 n1 W ltac:(lia) ltac:(lia) N0 ltac:(rewrite Ec; reflexivity) Hi E01).
    pose proof (edge_range 4 counts cl 0 2 p1 p3 x13 d13 n0 n2 W ltac:(lia) ltac:(lia) N0 ltac:(rewrite Ec; reflexivity) Hi E02).
    pose proof (edge_range 4 counts cl 0 3 p1 p4 x14 d14 n0 n3 W ltac:(lia) ltac:(lia) N0 ltac:(rewrite Ec; reflexivity) Hi E03).
    destruct cam as [|[|[|[|cam]]]]; simpl in Hcam; inversion Hcam; lia. }
  destruct (HQ n0 N0) as (HQ1 & HQ2 & _).
  assert (HB : forall t, In t Q -> t = blank).
  { intros t Ht. destruct (HQ1 t Ht); auto. exfalso. eapply Hnq; eauto. }
  assert (Hq' : In blank Q).
  { destruct HQ2 as [?|(b & Hb & _)]; auto.
    - intros [|t l] _ Hl'; [simpl; unfold NMAX; lia|]. exfalso. eapply Hnq. apply Hl'. simpl; auto.
    - rewrite <- (HB b Hb) at 1. auto. }
  destruct Q as [|b Q]; [contradiction|]. assert (b = blank) by (apply HB; simpl; auto). subst b.
  cbn [app] in *. destruct con as [|c con]; [discriminate|]. cbn [length firstn] in Hpre. assert (c = blank) by congruence. subst c.
  unfold assign_tnr. rewrite (zrange_cons 0 (Z.of_nat (length (blank :: Q ++ T ++ P)))) by (cbn [length]; lia). cbn [foldM].
  match goal with |- context [foldM ?f (zrange 0 4) targets] =>
    assert (EE : foldM f (zrange 0 4) targets = Exn IndexError); [|rewrite EE; reflexivity] end.
  apply In_nth_error in H0 as (cam & Hcam).
  assert (Hc4 : (cam < 4)%nat).
  { pose proof (proj1 W) as Lc. change (Z.to_nat 4) with 4%nat in Lc. rewrite <- Lc. apply nth_error_Some. congruence. }
  assert (Lc : length counts = 4%nat) by apply W.
  change (Z.to_nat 4) with 4%nat in *.
  apply (foldM_raises (rows_ok counts)) with (x := Z.of_nat cam).
  - split; [lia|]. intros k n ts Hk Hts.
    destruct (nth_error corrected k) as [cs|] eqn:Ecs.
    2:{ apply nth_error_None in Ecs. assert (k < length counts)%nat by (apply nth_error_Some; congruence). lia. }
    apply (Hco k n cs ts Hk Ecs Hts).
  - intros s j Hj (Ls & Hrows). apply In_zrange in Hj.
    change (pyget (blank :: con) 0) with (@Ok ntupel blank). cbn [bind].
    assert (Eq0 : pyget (tp blank) j = Ok 0).
    { apply pyget_nonneg; [lia|]. unfold blank; cbn [tp].
      assert (Hj' : (Z.to_nat j < 4)%nat).
      { lia. }
      destruct (Z.to_nat j) as [|[|[|[|?]]]]; try reflexivity; lia. }
    rewrite Eq0. cbn [bind]. rewrite (eq_refl : (0 <? 0) = false).
    destruct (pyget_in_range corrected j) as (row & Er & Enr); [lia|]. rewrite Er. cbn [bind].
    destruct row as [|crd row]; [left; reflexivity|].
    change (pyget (crd :: row) 0) with (@Ok coord2d crd). cbn [bind].
    destruct (nth_error counts (Z.to_nat j)) as [n|] eqn:En; [|apply nth_error_None in En; lia].
    destruct (nth_error targets (Z.to_nat j)) as [ts0|] eqn:Ets0; [|apply nth_error_None in Ets0; lia].
    destruct (Hco _ _ _ _ En Enr Ets0) as (_ & _ & Hp & _).
    specialize (Hp crd ltac:(simpl; auto)).
    right. destruct ((-1 <? c_pnr crd) && (c_pnr crd <? 1202590843)).
    2:{ exists s. split; auto. split; auto. }
    destruct (pyget_in_range s j) as (trow & Et & Ent); [lia|]. rewrite Et. cbn [bind].
    pose proof (Hrows _ _ _ En Ent) as Lt.
    destruct (pyget_in_range trow (c_pnr crd)) as (t & Ett & _); [lia|]. rewrite Ett. cbn [bind].
    rewrite !pyset_in_range by lia. cbn [bind].
    rewrite pyset_in_range by lia. eexists; split; [reflexivity|].
    split; [rewrite upd_length; auto|].
    intros k m ts Hk Hts. rewrite nth_error_upd in Hts.
    destruct (Nat.eq_dec (Z.to_nat j) k) as [<-|Hne].
    + destruct (Nat.ltb_spec (Z.to_nat j) (length s)); rewrite ?Nat.eqb_refl in Hts; cbn in Hts.
      * inversion Hts; subst. rewrite upd_length. congruence.
      * lia.
    + apply (Hrows k m ts); auto.
      destruct (Nat.eqb_spec (Z.to_nat j) k); [lia|]. destruct (Nat.eqb_spec k (Z.to_nat j)); [lia|]. exact Hts.
  - apply In_zrange. lia.
  - intros s _. change (pyget (blank :: con) 0) with (@Ok ntupel blank). cbn [bind].
    assert (Eq0 : pyget (tp blank) (Z.of_nat cam) = Ok 0).
    { apply pyget_nonneg; [lia|]. rewrite Nat2Z.id. unfold blank; cbn [tp].
      destruct cam as [|[|[|[|?]]]]; try reflexivity; lia. }
    rewrite Eq0. cbn [bind]. rewrite (eq_refl : (0 <? 0) = false).
    destruct (pyget_in_range corrected (Z.of_nat cam)) as (row & Er & Enr); [lia|]. rewrite Er. cbn [bind].
    rewrite Nat2Z.id in Enr.
    destruct (nth_error targets cam) as [ts0|] eqn:Ets0; [|apply nth_error_None in Ets0; lia].
    destruct (Hco _ _ _ _ Hcam Enr Ets0) as (Lr & _). destruct row; [reflexivity|discriminate].
Qed.

(** ---- C08 ---- *)
Lemma py_collect_ok nc flat tg targets con counts L off :
  (nc <= 4)%nat -> length counts = nc -> coords_ok (Z.of_nat nc) counts flat targets ->
  length tg = length targets ->
  (forall cam k, 0 <= cam -> 0 <= k ->
     match target_at targets cam k with
     | None => target_at tg cam k = None
     | Some old => exists i, target_at tg cam k = Some (set_tnr old i) \/ target_at tg cam k = Some old end) ->
  (forall c, In c L -> in_counts (Z.of_nat nc) counts c) ->
  (forall i c, nth_error L i = Some c -> nth_error con (off + i)%nat = Some c) ->
  exists rows, py_collect (Z.of_nat nc) tg flat con (Z.of_nat off) (Z.of_nat (length L)) = Ok rows /\
    reports nc flat targets L rows.
Proof.
  intros Hnc Lc (L1 & L2 & Hco) Ltg Htg Hin Hcon. rewrite Nat2Z.id in L1, L2.
  unfold py_collect.
  destruct (foldM_total (fun done acc => length acc = length done /\
     forall cam row, nth_error acc cam = Some row -> Forall2 (fun t item => reported flat targets t cam item) L row)
   (fun acc cam =>
    do row <- foldM (fun row pt =>
        do c <- pyget con (pt + Z.of_nat off);
        do geo <- pyget (tp c) cam;
        if geo <? 0 then Ok (row ++ [(CORRES_NONE, f_of_Z PT_UNUSED, f_of_Z PT_UNUSED)]) else
        do fl <- pyget flat cam;
        do crd <- pyget fl geo;
        let p1 := c_pnr crd in
        if -1 <? p1 then
          do im <- pyget tg cam;
          do t <- pyget im p1;
          Ok (row ++ [(p1, t_x t, t_y t)])
        else Ok (row ++ [(p1, f_of_Z PT_UNUSED, f_of_Z PT_UNUSED)]))
      (zrange 0 (Z.of_nat (length L))) [];
    Ok (acc ++ [row])) (zrange 0 (Z.of_nat nc)) []) as (rows & E & Lr & Hr).
  - split; auto. intros [|cam] row H; discriminate.
  - intros done cam rest acc Ed (La & Ha). apply zrange_split in Ed as (_ & Hcam & Ec).
    assert (Ecam : cam = Z.of_nat (length done)) by lia. clear Ec.
    match goal with |- context [foldM ?f ?l ?s] =>
      destruct (foldM_total (fun done2 row => length row = length done2 /\ Forall2 (fun t item => reported flat targets t (length done) item) (firstn (length done2) L) row) f l s) as (row & Er & Lrow & Hrow) end.
    + split; auto. constructor.
    + intros done2 pt rest2 row Ed2 (Lrow & Hrow). apply zrange_split in Ed2 as (_ & Hpt & Ept).
      assert (Ept' : pt = Z.of_nat (length done2)) by lia. clear Ept.
      destruct (nth_error L (length done2)) as [c|] eqn:EL; [|apply nth_error_None in EL; lia].
      pose proof (Hcon _ _ EL) as Ecn.
      rewrite (pyget_nonneg con (pt + Z.of_nat off) c) by (try lia; replace (Z.to_nat (pt + Z.of_nat off)) with (off + length done2)%nat by lia; auto).
      cbn [bind].
      destruct (Hin c (nth_error_In _ _ EL)) as (L4 & _ & Hmem).
      destruct (pyget_in_range (tp c) cam) as (geo & Eg & Ng); [lia|]. rewrite Eg. cbn [bind].
      assert (Ef : firstn (length (done2 ++ [pt])) L = firstn (length done2) L ++ [c]).
      { rewrite app_length. simpl. clear -EL. revert L EL. induction (length done2) as [|n IH]; intros [|y l] EL; simpl in *; try discriminate.
        - now inversion EL.
        - rewrite IH; auto. }
      rewrite Ef.
      assert (Done : forall item, reported flat targets c (length done) item ->
         exists s1, Ok (row ++ [item]) = Ok s1 /\ length s1 = length (done2 ++ [pt]) /\
           Forall2 (fun t item => reported flat targets t (length done) item) (firstn (length done2) L ++ [c]) s1).
      { intros item Hi. eexists; split; [reflexivity|]. split; [rewrite !app_length; simpl; lia|].
        apply Forall2_app; auto. }
      assert (Ncam : nth_error (tp c) (length done) = Some geo) by (rewrite <- Ng; f_equal; lia).
      destruct (Z.ltb_spec geo 0) as [Hgeo|Hgeo].
      * apply Done. exists geo. split; auto.
      * destruct (Hmem cam geo) as (n & En & Hlt).
        { split; [lia|]. split; auto. }
        destruct (pyget_in_range flat cam) as (fl & Efl & Nfl); [lia|]. rewrite Efl. cbn [bind].
        destruct (nth_error targets (Z.to_nat cam)) as [ts|] eqn:Ets; [|apply nth_error_None in Ets; lia].
        destruct (Hco _ _ _ _ En Nfl Ets) as (Lfl & Lts & Hp & _).
        destruct (pyget_in_range fl geo) as (crd & Ecrd & Ncrd); [lia|]. rewrite Ecrd. cbn [bind].
        specialize (Hp crd (nth_error_In _ _ Ncrd)). 
        destruct (Z.ltb_spec (-1) (c_pnr crd)); [|lia].
        specialize (Htg cam (c_pnr crd) ltac:(lia) ltac:(lia)).
        destruct (nth_error ts (Z.to_nat (c_pnr crd))) as [old|] eqn:Eold; [|apply nth_error_None in Eold; lia].
        assert (Eta : target_at targets cam (c_pnr crd) = Some old) by (unfold target_at; now rewrite Ets).
        rewrite Eta in Htg.
        destruct (nth_error tg (Z.to_nat cam)) as [im|] eqn:Eim; [|apply nth_error_None in Eim; lia].
        rewrite (pyget_nonneg tg cam im) by (auto; lia). cbn [bind].
        assert (Hnew : exists new, nth_error im (Z.to_nat (c_pnr crd)) = Some new /\ t_x new = t_x old /\ t_y new = t_y old).
        { unfold target_at in Htg. rewrite Eim in Htg. destruct Htg as (i & [-> | ->]); eexists; split; try reflexivity; auto. }
        destruct Hnew as (new & Nnew & Ex & Ey).
        rewrite (pyget_nonneg im (c_pnr crd) new) by (auto; lia). cbn [bind].
        apply Done. exists geo. split; auto. right. split; auto. exists fl, crd, old.
        replace (length done) with (Z.to_nat cam) by lia. split; auto. split; auto.
        rewrite Z2Nat.id by lia. split; auto. congruence.
    + rewrite Er. cbn [bind]. eexists; split; [reflexivity|]. split; [rewrite !app_length; simpl; lia|].
      intros k row' Hk. destruct (Nat.lt_ge_cases k (length acc)).
      * rewrite nth_error_app1 in Hk by auto. auto.
      * rewrite nth_error_app2 in Hk by auto. destruct (k - length acc)%nat as [|m] eqn:Ek; [|destruct m; discriminate].
        cbn in Hk. inversion Hk; subst row'. replace k with (length done) by lia.
        rewrite zrange_length in Hrow. rewrite firstn_all2 in Hrow by lia. exact Hrow.
  - exists rows. split; [exact E|]. split; [|exact Hr]. rewrite Lr, zrange_length. lia.
Qed.

Lemma py4_ok srt cl counts corrmin flag flat targets :
  sorts srt -> wf_adj 4 counts cl -> distinct_cands cl ->
  (forall n, In n counts -> 1 <= n <= NMAX) ->
  coords_ok 4 counts flat targets ->
  exists con tg Q T P rq rt rp,
    correspondences_from srt NMAX cl counts corrmin 4 flag flat targets [0; 0; 0; 0] =
      Ok (con, [Z.of_nat (length Q); Z.of_nat (length T); Z.of_nat (length P); Z.of_nat (length (Q ++ T ++ P))], tg) /\
    firstn (length (Q ++ T ++ P)) con = Q ++ T ++ P /\
    py_correspondences_multi srt cl counts corrmin 4 flag flat targets =
      Ok ([rq; rt; rp], Z.of_nat (length (Q ++ T ++ P)), tg) /\
    reports 4 flat targets Q rq /\ reports 4 flat targets T rt /\ reports 4 flat targets P rp.
Proof.
  intros Hs W HD HN Hco.
  destruct (corr4_main srt cl counts corrmin flag flat targets Hs W HD HN Hco) as
    (con & tg & Q & T & P & E & Hf & Hl & Hdis & Hin & _ & _ & _ & _ & _ & _ & _ & _ & _ & Ltg & Hst).
  assert (Lc : length counts = 4%nat) by apply W.
  assert (Htg : forall cam k, 0 <= cam -> 0 <= k ->
     match target_at targets cam k with
     | None => target_at tg cam k = None
     | Some old => exists i, target_at tg cam k = Some (set_tnr old i) \/ target_at tg cam k = Some old end).
  { intros cam k Hc Hk. specialize (Hst cam k Hc Hk). destruct (target_at targets cam k); auto.
    destruct Hst as [(i & _ & ?)|(_ & ?)]; [exists i; auto|exists 0; auto]. }
  assert (Hcon : forall i c, nth_error (Q ++ T ++ P) i = Some c -> nth_error con i = Some c).
  { intros i c Hi. rewrite <- Hf in Hi. 
    rewrite <- (firstn_skipn (length (Q ++ T ++ P)) con). rewrite nth_error_app1; auto.
    apply nth_error_Some. congruence. }
  destruct (py_collect_ok 4 flat tg targets con counts Q 0) as (rq & Eq & Hq); auto; try lia.
  { intros c Hc. apply Hin. apply in_or_app; auto. }
  { intros i c Hi. apply Hcon. rewrite nth_error_app1; auto. change (0 + i)%nat with i. apply nth_error_Some. congruence. }
  destruct (py_collect_ok 4 flat tg targets con counts T (length Q)) as (rt & Et & Ht); auto; try lia.
  { intros c Hc. apply Hin. apply in_or_app; right; apply in_or_app; auto. }
  { intros i c Hi. apply Hcon. rewrite nth_error_app2 by lia. rewrite nth_error_app1.
    - rewrite <- Hi. f_equal. lia.
    - assert (i < length T)%nat by (apply nth_error_Some; congruence). lia. }
  destruct (py_collect_ok 4 flat tg targets con counts P (length Q + length T)) as (rp & Ep & Hp); auto; try lia.
  { intros c Hc. apply Hin. apply in_or_app; right; apply in_or_app; auto. }
  { intros i c Hi. apply Hcon. rewrite nth_error_app2 by lia. rewrite nth_error_app2 by lia.
    rewrite <- Hi. f_equal. lia. }
  exists con, tg, Q, T, P, rq, rt, rp. split; [exact E|]. split; [exact Hf|]. split; [|auto].
  unfold py_correspondences_multi. change (repeat 0 (Z.to_nat 4)) with [0; 0; 0; 0].
  rewrite E. cbn [bind].
  change (zrange 0 (4 - 1)) with [0; 1; 2]. cbn [foldM].
  change (Z.of_nat 4) with 4 in *. change (Z.of_nat 0) with 0 in *.
  change (pyget [Z.of_nat (length Q); Z.of_nat (length T); Z.of_nat (length P); Z.of_nat (length (Q ++ T ++ P))] (4 - 4 + 0)) with (Ok (Z.of_nat (length Q))).
  cbn [bind]. rewrite Eq. cbn [bind].
  change (pyget [Z.of_nat (length Q); Z.of_nat (length T); Z.of_nat (length P); Z.of_nat (length (Q ++ T ++ P))] (4 - 4 + 1)) with (Ok (Z.of_nat (length T))).
  cbn [bind]. rewrite Z.add_0_l. rewrite Et. cbn [bind].
  change (pyget [Z.of_nat (length Q); Z.of_nat (length T); Z.of_nat (length P); Z.of_nat (length (Q ++ T ++ P))] (4 - 4 + 2)) with (Ok (Z.of_nat (length P))).
  cbn [bind]. rewrite <- Nat2Z.inj_add. rewrite Ep. cbn [bind].
  reflexivity.
Qed.

(** two cameras: never a result *)
Lemma py2_fails srt cl counts corrmin flag flat targets :
  exists e, py_correspondences_multi srt cl counts corrmin 2 flag flat targets = Exn e.
Proof.
  unfold py_correspondences_multi, correspondences_from. change (repeat 0 (Z.to_nat 2)) with [0; 0].
  rewrite (eq_refl : (2 =? 4) = false). rewrite (eq_refl : (2 =? 3) = false). rewrite (eq_refl : (1 <? 2) = true).
  cbn [andb orb bind].
  destruct (flag =? 0).
  - match goal with |- context [consistent_pair_matching ?a ?b ?c ?d ?e ?f ?g] =>
      destruct (consistent_pair_matching a b c d e f g) as [s|e0] end; cbn [bind]; [|eauto].
    unfold phase. rewrite (eq_refl : (2 =? 0) = false).
    change (pyget [0; 0] 3) with (@Exn Z IndexError). cbn [bind]. eauto.
  - cbn [bind]. change (pyget [0; 0] 3) with (@Exn Z IndexError). cbn [bind]. eauto.
Qed.

Lemma py3_fails srt cl counts corrmin flag flat targets :
  exists e, py_correspondences_multi srt cl counts corrmin 3 flag flat targets = Exn e.
Proof.
  unfold py_correspondences_multi, correspondences_from. change (repeat 0 (Z.to_nat 3)) with [0; 0; 0].
  rewrite (eq_refl : (3 =? 4) = false). rewrite (eq_refl : (3 =? 3) = true).
  cbn [andb orb bind].
  match goal with |- context [three_camera_matching ?a ?b ?c ?d ?e ?f ?g] =>
      destruct (three_camera_matching a b c d e f g) as [s|e0] end; cbn [bind]; [|eauto].
  unfold phase. rewrite (eq_refl : (1 =? 0) = false).
  change (pyget [0; 0; 0] 3) with (@Exn Z IndexError). cbn [bind]. eauto.
Qed.

(** ---- C09 ---- *)
Lemma single_cam_ok img corrected :
  length corrected = length img ->
  (forall c, In c corrected -> 0 <= c_pnr c < Z.of_nat (length img)) -> NoDup (map c_pnr corrected) ->
  exists ids tg, single_cam_correspondences img corrected = Ok (ids, tg) /\
    length tg = length img /\
    Forall2 (fun c item => exists t, nth_error img (Z.to_nat (c_pnr c)) = Some t /\ item = (c_pnr c, t_x t, t_y t)) corrected ids /\
    forall pt c t, nth_error corrected pt = Some c -> nth_error img (Z.to_nat (c_pnr c)) = Some t ->
       nth_error tg (Z.to_nat (c_pnr c)) = Some (set_tnr t (Z.of_nat pt)).
Proof.
  intros Ll Hr ND. unfold single_cam_correspondences.
  destruct (foldM_total (fun done st =>
      length (snd st) = length img /\
      Forall2 (fun c item => exists t, nth_error img (Z.to_nat (c_pnr c)) = Some t /\ item = (c_pnr c, t_x t, t_y t))
        (firstn (length done) corrected) (fst st) /\
      (forall pt c t, (pt < length done)%nat -> nth_error corrected pt = Some c -> nth_error img (Z.to_nat (c_pnr c)) = Some t ->
         nth_error (snd st) (Z.to_nat (c_pnr c)) = Some (set_tnr t (Z.of_nat pt))) /\
      (forall pt c, (length done <= pt)%nat -> nth_error corrected pt = Some c ->
         nth_error (snd st) (Z.to_nat (c_pnr c)) = nth_error img (Z.to_nat (c_pnr c))))
    (fun '(ids, tg) pt =>
    do c <- pyget corrected pt;
    let p1 := c_pnr c in
    if -1 <? p1 then
      do t <- pyget tg p1;
      do tg' <- pyset tg p1 (set_tnr t pt);
      Ok (ids ++ [(p1, t_x t, t_y t)], tg')
    else Ok (ids ++ [(p1, f_of_Z PT_UNUSED, f_of_Z PT_UNUSED)], tg))
    (zrange 0 (Z.of_nat (length img))) ([], img)) as ([ids tg] & E & P1 & P2 & P3 & _).
  - simpl. split; auto. split; [constructor|]. split; [intros; lia|]. auto.
  - intros done pt rest [ids tg] Ed (P1 & P2 & P3 & P4). cbn [fst snd] in *.
    apply zrange_split in Ed as (_ & Hpt & Ept). assert (Ept' : pt = Z.of_nat (length done)) by lia. clear Ept.
    destruct (pyget_in_range corrected pt) as (c & Ec & Nc); [lia|]. rewrite Ec. cbn [bind].
    replace (Z.to_nat pt) with (length done) in Nc by lia.
    pose proof (Hr c (nth_error_In _ _ Nc)) as Hc.
    destruct (Z.ltb_spec (-1) (c_pnr c)); [|lia].
    destruct (pyget_in_range tg (c_pnr c)) as (t & Et & Nt); [lia|]. rewrite Et. cbn [bind].
    rewrite pyset_in_range by lia. cbn [bind].
    pose proof (P4 (length done) c ltac:(lia) Nc) as Hold. rewrite Nt in Hold.
    eexists; split; [reflexivity|]. cbn [fst snd].
    split; [rewrite upd_length; auto|]. split; [|split].
    + assert (Ef : firstn (length (done ++ [pt])) corrected = firstn (length done) corrected ++ [c]).
      { rewrite app_length. simpl. clear -Nc. revert corrected Nc. induction (length done) as [|n IH]; intros [|y l] EL; simpl in *; try discriminate.
        - now inversion EL.
        - rewrite IH; auto. }
      rewrite Ef. apply Forall2_app; auto. constructor; [|constructor]. exists t. auto.
    + intros k c' t' Hk Nc' Nt'. rewrite app_length in Hk. simpl in Hk.
      destruct (Nat.eq_dec k (length done)) as [->|Hne].
      * rewrite Nc in Nc'. inversion Nc'; subst c'. rewrite nth_error_upd_eq by lia.
        rewrite <- Hold in Nt'. inversion Nt'; subst. f_equal.
      * rewrite nth_error_upd_neq; [apply (P3 k c' t'); auto; lia|].
        intros Heq. apply Hne. rewrite NoDup_nth_error in ND. apply ND.
        { rewrite map_length. apply nth_error_Some. congruence. }
        rewrite !nth_error_map, Nc, Nc'. simpl. f_equal.
        pose proof (Hr c' (nth_error_In _ _ Nc')). lia.
    + intros k c' Hk Nc'. rewrite app_length in Hk. simpl in Hk.
      rewrite nth_error_upd_neq; [apply (P4 k c'); auto; lia|].
      intros Heq. assert (k = length done); [|lia]. rewrite NoDup_nth_error in ND. apply ND.
      { rewrite map_length. apply nth_error_Some. congruence. }
      rewrite !nth_error_map, Nc, Nc'. simpl. f_equal.
      pose proof (Hr c' (nth_error_In _ _ Nc')). lia.
  - exists ids, tg. rewrite zrange_length in *. cbn [fst snd] in *.
    rewrite firstn_all2 in P2 by lia.
    split; [exact E|]. split; auto. split; auto.
    intros pt c t Nc Nt. apply (P3 pt c t); auto.
    assert (pt < length corrected)%nat by (apply nth_error_Some; congruence). lia.
Qed.
