From Coq Require Import Permutation Sorted.
From Verif Require Import Base Lib F64 Model_corr Spec_corr Model_cand Spec_cand Model_misc Spec_misc.
Local Open Scope Z_scope.

(** the vocabulary of Spec_misc in terms of the model's tests *)
Definition nearest0 (pix : list target) (x y eps : f64) (j : nat) : Prop :=
  exists t, nth_error pix j = Some t /\ in_box x y eps t = true /\ flt (pix_dist x y t) POS_INF = true /\
  forall k u, nth_error pix k = Some u -> in_box x y eps u = true ->
    flt (pix_dist x y u) (pix_dist x y t) = false /\
    ((k < j)%nat -> flt (pix_dist x y t) (pix_dist x y u) = true \/ is_nan (pix_dist x y u) = true).
Definition none_near0 (pix : list target) (x y eps : f64) : Prop :=
  forall t, In t pix -> in_box x y eps t = true -> flt (pix_dist x y t) POS_INF = false.
Definition assigned0 (project : Z -> result (f64 * f64)) (eps imx imy : f64) (pix : list target) (i : Z) (j : nat) : Prop :=
  exists p, project i = Ok p /\ on_sensor eps imx imy p = true /\ nearest0 pix (fst p) (snd p) eps j.
Definition last_assigned0 project eps imx imy pix nfix (i : Z) (j : nat) : Prop :=
  0 <= i < nfix /\ assigned0 project eps imx imy pix i j /\
  forall i', i < i' < nfix -> ~ assigned0 project eps imx imy pix i' j.
Definition same_detection (a b : target) : Prop := set_pnr a 0 = set_pnr b 0.
Lemma near_box x y eps t : near x y eps t <-> in_box x y eps t = true.
Proof. unfold near, in_box. rewrite !andb_true_iff. tauto. Qed.
Lemma on_image_sensor eps imx imy p : on_image eps imx imy p <-> on_sensor eps imx imy p = true.
Proof. unfold on_image, on_sensor. rewrite !andb_true_iff. tauto. Qed.
Lemma nearest_iff pix x y eps j : nearest pix x y eps j <-> nearest0 pix x y eps j.
Proof.
  split; intros (t & A & B & C & D); exists t; split; auto; (split; [apply near_box; auto|]); (split; [exact C|]);
  intros k u Hk Hu; apply D; auto; apply near_box; auto.
Qed.
Lemma assigned_iff pr eps imx imy pix i j : assigned pr eps imx imy pix i j <-> assigned0 pr eps imx imy pix i j.
Proof.
  split; intros (p & A & B & C); exists p; split; auto; (split; [apply on_image_sensor; auto|apply nearest_iff; auto]).
Qed.
Lemma last_assigned_iff pr eps imx imy pix n i j : last_assigned pr eps imx imy pix n i j <-> last_assigned0 pr eps imx imy pix n i j.
Proof.
  split; intros (A & B & C); split; auto; (split; [apply assigned_iff; auto|]); intros i' Hi' H; apply (C i' Hi'); apply assigned_iff; auto.
Qed.

(** ---- enumerate ---- *)
Lemma combine_zrange {A} (l : list A) : forall a b k, b - a = Z.of_nat (length l) ->
  nth_error (combine (zrange a b) l) k = option_map (fun x => (a + Z.of_nat k, x)) (nth_error l k).
Proof.
  induction l as [|x l IH]; intros a b k H; cbn [length] in H.
  - rewrite zrange_empty by lia. cbn [combine]. now destruct k.
  - rewrite zrange_cons by lia. cbn [combine]. destruct k as [|k]; cbn [nth_error option_map].
    + now rewrite Z.add_0_r.
    + rewrite IH by lia. destruct (nth_error l k); cbn [option_map]; [|reflexivity]. f_equal. f_equal. lia.
Qed.
Lemma nth_enumerate {A} (l : list A) k : nth_error (enumerate l) k = option_map (fun x => (Z.of_nat k, x)) (nth_error l k).
Proof. unfold enumerate. rewrite combine_zrange by lia. reflexivity. Qed.

(** ---- match_coords ---- *)
Section Match.
Variable flat : f64 -> f64 -> f64 * f64.
Variable sort_x : list coord2d -> list coord2d.
Hypothesis SX : sorts_by_x sort_x.
Definition renumbered (reset : bool) (kt : Z * target) : target := if reset then set_pnr (snd kt) (fst kt) else snd kt.
Lemma match_fold reset l : forall ts, fold_left (match_one flat reset) l (ts, map (flat_of flat) ts) =
  (ts ++ map (renumbered reset) l, map (flat_of flat) (ts ++ map (renumbered reset) l)).
Proof.
  induction l as [|(k, t) l IH]; intros ts; cbn [fold_left map]; [now rewrite app_nil_r|].
  assert (E : match_one flat reset (ts, map (flat_of flat) ts) (k, t) =
              (ts ++ [renumbered reset (k, t)], map (flat_of flat) (ts ++ [renumbered reset (k, t)]))).
  { unfold match_one. rewrite map_app. cbn [map]. unfold flat_of at 3. unfold renumbered. cbn [fst snd].
    destruct reset; destruct (flat _ _) as [x y] eqn:E; cbn [t_x t_y set_pnr] in E |- *; rewrite ?E; reflexivity. }
  rewrite E, IH. rewrite <- app_assoc. reflexivity.
Qed.
Lemma match_coords_ok targs reset : let '(targs', mc) := match_coords flat sort_x targs reset in
  length targs' = length targs /\
  (forall k t, nth_error targs k = Some t -> nth_error targs' k = Some (if reset then set_pnr t (Z.of_nat k) else t)) /\
  Permutation mc (map (flat_of flat) targs') /\ StronglySorted (fun a b => np_le (c_x a) (c_x b) = true) mc.
Proof.
  unfold match_coords. pose proof (match_fold reset (enumerate targs) []) as H. cbn [map app] in H. rewrite H.
  split; [|split; [|apply SX]].
  - rewrite map_length. unfold enumerate. rewrite combine_length, zrange_length. lia.
  - intros k t E. rewrite nth_error_map, nth_enumerate, E. cbn [option_map]. unfold renumbered. cbn [fst snd]. reflexivity.
Qed.
Lemma match_coords_reset targs c : In c (snd (match_coords flat sort_x targs true)) <->
  exists k t, nth_error targs k = Some t /\ c_pnr c = Z.of_nat k /\ (c_x c, c_y c) = flat (t_x t) (t_y t).
Proof.
  pose proof (match_coords_ok targs true) as H. destruct (match_coords flat sort_x targs true) as (ts' & mc). destruct H as (HL & HN & HP & _).
  cbn [snd]. split.
  - intros Hc. apply (Permutation_in _ HP) in Hc. apply in_map_iff in Hc as (t' & <- & Ht').
    apply In_nth_error in Ht' as (k & Hk).
    assert (KL : (k < length targs)%nat) by (rewrite <- HL; apply nth_error_Some; congruence).
    destruct (nth_error targs k) as [t|] eqn:E; [|apply nth_error_None in E; lia].
    pose proof (HN k t E) as X. rewrite Hk in X. injection X as ->. exists k, t. split; auto. split; [reflexivity|].
    cbn [flat_of c_x c_y set_pnr t_x t_y]. now destruct (flat (t_x t) (t_y t)).
  - intros (k & t & E & P & F). apply (Permutation_in _ (Permutation_sym HP)). apply in_map_iff.
    exists (set_pnr t (Z.of_nat k)). split; [|apply (nth_error_In _ k); auto].
    destruct c as [p x y]. cbn [c_pnr c_x c_y] in *. unfold flat_of. cbn [t_pnr t_x t_y set_pnr]. rewrite <- F. cbn [fst snd]. now subst p.
Qed.
(** the block is a valid input of the candidate search (hypotheses of C10) *)
Lemma match_coords_usable targs : (forall t, In t targs -> is_nan (fst (flat (t_x t) (t_y t))) = false) ->
  ascending (map c_x (snd (match_coords flat sort_x targs true))) /\
  pnrs_ok (snd (match_coords flat sort_x targs true)) (fst (match_coords flat sort_x targs true)).
Proof.
  intros NN. pose proof (match_coords_ok targs true) as H. pose proof (match_coords_reset targs) as IN.
  destruct (match_coords flat sort_x targs true) as (ts' & mc). destruct H as (HL & HN & HP & HS). cbn [fst snd] in *. split.
  - intros i j a b L Ha Hb. rewrite nth_error_map in Ha, Hb.
    destruct (nth_error mc i) as [ca|] eqn:Ea; [|discriminate]. destruct (nth_error mc j) as [cb|] eqn:Eb; [|discriminate].
    injection Ha as <-. injection Hb as <-.
    assert (LE : np_le (c_x ca) (c_x cb) = true).
    { clear -HS L Ea Eb. revert i j L Ea Eb. induction HS as [|c l HS IH F]; intros i j L Ea Eb; [now destruct i|].
      destruct j as [|j]; [lia|]. destruct i as [|i]; cbn [nth_error] in *.
      - injection Ea as <-. rewrite Forall_forall in F. apply F. now apply nth_error_In in Eb.
      - apply (IH i j); auto. lia. }
    unfold np_le in LE. apply orb_prop in LE as [LE|LE]; auto.
    apply nth_error_In, IN in Eb as (k & t & Et & _ & F). apply nth_error_In, NN in Et. rewrite <- F in Et. cbn [fst] in Et. congruence.
  - intros c Hc. apply IN in Hc as (k & t & Et & -> & _). rewrite HL. assert (k < length targs)%nat by (apply nth_error_Some; congruence). lia.
Qed.
End Match.

(** ---- get_by_pnrs ---- *)
Lemma first_index_spec pnrs v : match first_index pnrs v with
  | Some k => nth_error pnrs k = Some v /\ forall k', (k' < k)%nat -> nth_error pnrs k' <> Some v
  | None => ~ In v pnrs
  end.
Proof.
  induction pnrs as [|p l IH]; cbn [first_index]; [easy|]. destruct (Z.eqb_spec v p) as [->|N].
  - split; [reflexivity|]. intros k' H. lia.
  - destruct (first_index l v) as [k|]; cbn [option_map].
    + destruct IH as (H1 & H2). split; [exact H1|]. intros [|k'] H; cbn [nth_error]; [congruence|]. apply H2. lia.
    + intros [->|H]; congruence.
Qed.
Lemma get_by_pnrs_ok mc pnrs : length (get_by_pnrs mc pnrs) = length pnrs /\
  forall k v, nth_error pnrs k = Some v ->
    ((forall k', (k' < k)%nat -> nth_error pnrs k' <> Some v) ->
       (forall c, last_with mc v c -> nth_error (get_by_pnrs mc pnrs) k = Some (c_x c, c_y c)) /\
       ((forall c, In c mc -> c_pnr c <> v) -> nth_error (get_by_pnrs mc pnrs) k = Some (COORD_UNUSED, COORD_UNUSED))) /\
    ((exists k', (k' < k)%nat /\ nth_error pnrs k' = Some v) -> nth_error (get_by_pnrs mc pnrs) k = Some (COORD_UNUSED, COORD_UNUSED)).
Proof.
  induction mc as [|c mc IH] using rev_ind.
  - unfold get_by_pnrs. cbn [fold_left]. rewrite repeat_length. split; [reflexivity|]. intros k v E.
    assert (K : (k < length pnrs)%nat) by (apply nth_error_Some; congruence).
    rewrite nth_error_repeat by auto. split; [|reflexivity]. intros _. split; [|reflexivity]. intros c (a & b & X & _). destruct a; discriminate.
  - destruct IH as (HL & H). unfold get_by_pnrs in *. rewrite fold_left_app. cbn [fold_left].
    set (P := fold_left _ mc _) in *. pose proof (first_index_spec pnrs (c_pnr c)) as FI.
    destruct (first_index pnrs (c_pnr c)) as [k0|].
    + destruct FI as (F1 & F2). split; [now rewrite upd_length|]. intros k v E. destruct (H k v E) as (H1 & H2).
      assert (K0 : (k0 < length P)%nat) by (rewrite HL; apply nth_error_Some; congruence).
      destruct (Nat.eq_dec k k0) as [->|N].
      * assert (v = c_pnr c) by congruence. subst v. rewrite nth_error_upd_eq by auto. split.
        -- intros FF. split.
           ++ intros d (a & b & X & PV & LB). destruct (exists_last (l := d :: b)) as (b' & z & Z); [discriminate|].
              rewrite Z in X. rewrite app_assoc in X. apply app_inj_tail in X as (X1 & <-).
              destruct b' as [|d' b'']; [injection Z as -> ->; reflexivity|]. injection Z as <- ->.
              exfalso. apply (LB c); auto. apply in_or_app. right. now left.
           ++ intros NO. exfalso. apply (NO c); auto. apply in_or_app. right. now left.
        -- intros (k' & L & X). exfalso. now apply (F2 k').
      * rewrite nth_error_upd_neq by auto. split; [|exact H2]. intros FF. destruct (H1 FF) as (H3 & H4). 
        assert (NV : c_pnr c <> v).
        { intros X. rewrite <- X in E. destruct (Nat.lt_ge_cases k k0) as [L|L]; [now apply (F2 k)|].
          apply (FF k0); [lia|congruence]. }
        split.
        -- intros d (a & b & X & PV & LB). apply H3. destruct (exists_last (l := d :: b)) as (b' & z & Z); [discriminate|].
           rewrite Z in X. rewrite app_assoc in X. apply app_inj_tail in X as (X1 & <-).
           destruct b' as [|d' b'']; [injection Z as -> ->; congruence|]. injection Z as <- ->.
           exists a, b''. split; [now rewrite X1|]. split; auto. intros e He. apply LB. apply in_or_app. now left.
        -- intros NO. apply H4. intros e He. apply NO. apply in_or_app. now left.
    + split; [exact HL|]. intros k v E. destruct (H k v E) as (H1 & H2). split; [|exact H2]. intros FF. destruct (H1 FF) as (H3 & H4).
      assert (NV : c_pnr c <> v) by (intros X; apply FI; rewrite X; eapply nth_error_In; eauto). split.
      * intros d (a & b & X & PV & LB). apply H3. destruct (exists_last (l := d :: b)) as (b' & z & Z); [discriminate|].
        rewrite Z in X. rewrite app_assoc in X. apply app_inj_tail in X as (X1 & <-).
        destruct b' as [|d' b'']; [injection Z as -> ->; congruence|]. injection Z as <- ->.
        exists a, b''. split; [now rewrite X1|]. split; auto. intros e He. apply LB. apply in_or_app. now left.
      * intros NO. apply H4. intros e He. apply NO. apply in_or_app. now left.
Qed.

(** ---- nearest_neighbour_pix ---- *)
Section Near.
Variables x y eps : f64.
Notation D t := (pix_dist x y t).
Definition near_inv (pre : list target) (st : Z * f64) : Prop :=
  (st = (PT_UNUSED, POS_INF) /\ none_near0 pre x y eps) \/
  exists j t, nearest0 pre x y eps j /\ nth_error pre j = Some t /\ st = (Z.of_nat j, D t).
Lemma far_trans d b u : flt d b = true -> flt u b = false -> flt u d = false /\ (flt d u = true \/ is_nan u = true).
Proof.
  intros H1 H2. split.
  - destruct (flt u d) eqn:E; auto. rewrite (flt_trans _ _ _ E H1) in H2. discriminate.
  - destruct (is_nan u) eqn:N; auto. left. destruct (flt_not_nan _ _ H1) as (_ & NB).
    assert (fle b u = true) by now apply flt_false_fle. now apply flt_fle_trans with b.
Qed.
Lemma near_step pre st t : near_inv pre st ->
  near_inv (pre ++ [t]) (let '(pnr, dmin) := st in
    if in_box x y eps t then let d := D t in if flt d dmin then (Z.of_nat (length pre), d) else st else st).
Proof.
  intros HI. destruct st as [pnr dmin].
  assert (NT : nth_error (pre ++ [t]) (length pre) = Some t) by (rewrite nth_error_app2, Nat.sub_diag by lia; reflexivity).
  assert (NP : forall k u, nth_error (pre ++ [t]) k = Some u -> (k < length pre)%nat /\ nth_error pre k = Some u \/ k = length pre /\ u = t).
  { intros k u E. destruct (Nat.lt_ge_cases k (length pre)) as [L|L]; [rewrite nth_error_app1 in E by auto; auto|right].
    rewrite nth_error_app2 in E by auto. destruct (k - length pre)%nat as [|n] eqn:N; [|destruct n; discriminate]. injection E as ->. split; auto. lia. }
  assert (KEEP : (in_box x y eps t = true -> flt (D t) dmin = false) -> near_inv (pre ++ [t]) (pnr, dmin)).
  { intros NO. destruct HI as [(E & NN)|(j & u & (u' & U1 & U2 & U3 & U4) & EU & E)].
    - left. split; auto. apply pair_equal_spec in E as (-> & ->). intros v Hv Bv. apply in_app_or in Hv as [Hv|[<-|[]]]; auto.
    - right. apply pair_equal_spec in E as (-> & ->). rewrite EU in U1. injection U1 as <-.
      assert (JL : (j < length pre)%nat) by (apply nth_error_Some; congruence).
      exists j, u. split; [|split; [rewrite nth_error_app1; auto|reflexivity]].
      exists u. rewrite nth_error_app1 by auto. split; auto. split; auto. split; auto.
      intros k v Ev Bv. apply NP in Ev as [(_ & Ev)|(-> & ->)]; [now apply U4|]. split; [now apply NO|lia]. }
  destruct (in_box x y eps t) eqn:B; [|apply KEEP; discriminate]. cbn zeta.
  destruct (flt (D t) dmin) eqn:F; [|now apply KEEP].
  right. exists (length pre), t. split; [|auto]. exists t. split; auto. split; auto.
  assert (FI : flt (D t) POS_INF = true /\ forall u, In u pre -> in_box x y eps u = true -> flt (D u) dmin = false).
  { destruct HI as [(E & NN)|(j & u & (u' & U1 & U2 & U3 & U4) & EU & E)]; apply pair_equal_spec in E as (-> & ->).
    - split; auto.
    - rewrite EU in U1. injection U1 as <-. split; [now apply flt_trans with (D u)|].
      intros v Hv Bv. apply In_nth_error in Hv as (k & Ek). now apply (U4 k v). }
  destruct FI as (FI & FU). split; auto. intros k u Eu Bu. apply NP in Eu as [(L & Eu)|(-> & ->)].
  - destruct (far_trans _ _ _ F (FU u (nth_error_In _ _ Eu) Bu)) as (X1 & X2). auto.
  - split; [apply flt_irrefl|lia].
Qed.
Lemma near_fold rest : forall pre st, near_inv pre st ->
  near_inv (pre ++ rest) (fold_left (fun (st : Z * f64) (ct : Z * target) =>
    let '(pnr, dmin) := st in let '(count, t) := ct in
    if in_box x y eps t then let d := pix_dist x y t in if flt d dmin then (count, d) else st else st)
    (combine (zrange (Z.of_nat (length pre)) (Z.of_nat (length pre) + Z.of_nat (length rest))) rest) st).
Proof.
  induction rest as [|t rest IH]; intros pre st H.
  - cbn [length]. rewrite zrange_empty by lia. cbn [combine fold_left]. now rewrite app_nil_r.
  - cbn [length]. rewrite zrange_cons by lia. cbn [combine fold_left].
    replace (pre ++ t :: rest) with ((pre ++ [t]) ++ rest) by now rewrite <- app_assoc.
    pose proof (near_step pre st t H) as H'. specialize (IH (pre ++ [t]) _ H').
    rewrite app_length in IH. cbn [length] in IH.
    replace (Z.of_nat (length pre + 1)) with (Z.of_nat (length pre) + 1) in IH by lia.
    replace (Z.of_nat (length pre) + 1 + Z.of_nat (length rest)) with (Z.of_nat (length pre) + Z.of_nat (S (length rest))) in IH by lia.
    destruct st as [pnr dmin]. exact IH.
Qed.
Lemma nearest_neighbour_ok pix :
  (nearest_neighbour_pix pix x y eps = PT_UNUSED /\ none_near0 pix x y eps) \/
  exists j, nearest_neighbour_pix pix x y eps = Z.of_nat j /\ nearest0 pix x y eps j.
Proof.
  assert (I0 : near_inv [] (PT_UNUSED, POS_INF)) by (left; split; [reflexivity|intros u []]).
  pose proof (near_fold pix [] _ I0) as H. cbn [app length] in H. rewrite Z.add_0_l in H. change (Z.of_nat 0) with 0 in H. fold (enumerate pix) in H.
  unfold nearest_neighbour_pix. destruct H as [(E & N)|(j & t & N & _ & E)]; rewrite E; cbn [fst]; eauto.
Qed.
End Near.
Lemma nearest_unique pix x y eps j k : nearest0 pix x y eps j -> nearest0 pix x y eps k -> j = k.
Proof.
  assert (W : forall j k, nearest0 pix x y eps j -> nearest0 pix x y eps k -> ~ (j < k)%nat).
  { clear. intros j k (t & T1 & T2 & T3 & T4) (u & U1 & U2 & U3 & U4) L.
    destruct (U4 j t T1 T2) as (_ & U). destruct (U L) as [X|X].
    - destruct (T4 k u U1 U2) as (Y & _). congruence.
    - destruct (flt_not_nan _ _ T3). congruence. }
  intros H1 H2. pose proof (W j k H1 H2). pose proof (W k j H2 H1). lia.
Qed.
Lemma nearest_excl pix x y eps j : none_near0 pix x y eps -> ~ nearest0 pix x y eps j.
Proof. intros N (t & T1 & T2 & T3 & _). rewrite (N t) in T3; [discriminate| |auto]. eapply nth_error_In; eauto. Qed.
(** target numbers do not matter *)
Lemma nearest_same pix pix' x y eps j : map (fun t => set_pnr t 0) pix = map (fun t => set_pnr t 0) pix' ->
  nearest0 pix x y eps j -> nearest0 pix' x y eps j.
Proof.
  intros E (t & T1 & T2 & T3 & T4).
  assert (X : forall k u', nth_error pix' k = Some u' -> exists u, nth_error pix k = Some u /\ set_pnr u 0 = set_pnr u' 0).
  { intros k u' Hu. assert (Y : nth_error (map (fun t => set_pnr t 0) pix) k = Some (set_pnr u' 0)) by (rewrite E, nth_error_map, Hu; reflexivity).
    rewrite nth_error_map in Y. destruct (nth_error pix k) as [u|]; [|discriminate]. exists u. split; [reflexivity|]. now apply f_equal with (f := fun o => match o with Some a => a | None => set_pnr u 0 end) in Y. }
  assert (B : forall u u', set_pnr u 0 = set_pnr u' 0 -> in_box x y eps u = in_box x y eps u' /\ pix_dist x y u = pix_dist x y u').
  { intros u u' H. unfold set_pnr in H. injection H as H1 H2 _ _ _ _ _. unfold in_box, pix_dist. now rewrite H1, H2. }
  assert (X' : exists t', nth_error pix' j = Some t' /\ set_pnr t 0 = set_pnr t' 0).
  { assert (Y : nth_error (map (fun t => set_pnr t 0) pix') j = Some (set_pnr t 0)) by (rewrite <- E, nth_error_map, T1; reflexivity).
    rewrite nth_error_map in Y. destruct (nth_error pix' j) as [u|]; [|discriminate]. exists u. split; [reflexivity|]. symmetry. now apply f_equal with (f := fun o => match o with Some a => a | None => set_pnr u 0 end) in Y. }
  destruct X' as (t' & T' & ET). destruct (B _ _ ET) as (B1 & B2). exists t'. rewrite <- B1, <- B2. split; auto. split; auto. split; auto.
  intros k u' Hu Hb. destruct (X k u' Hu) as (u & Eu & S). destruct (B _ _ S) as (C1 & C2). rewrite <- C2. apply (T4 k u Eu). congruence.
Qed.

(** ---- a sort routine by x (insertion sort) ---- *)
Fixpoint ins_x (c : coord2d) (l : list coord2d) : list coord2d :=
  match l with [] => [c] | d :: t => if np_le (c_x c) (c_x d) then c :: l else d :: ins_x c t end.
Definition isort_x (l : list coord2d) : list coord2d := fold_right ins_x [] l.
Lemma np_le_trans a b c : np_le a b = true -> np_le b c = true -> np_le a c = true.
Proof.
  unfold np_le. intros H1 H2. apply orb_prop in H1, H2. apply orb_true_intro.
  destruct H2 as [H2|H2]; [|now right]. destruct H1 as [H1|H1]; [left; eapply fle_trans; eauto|].
  destruct (fle_not_nan _ _ H2). congruence.
Qed.
Lemma np_le_total a b : np_le a b = false -> np_le b a = true.
Proof.
  unfold np_le. intros H. apply orb_false_elim in H as (H1 & H2). destruct (is_nan a) eqn:Na; [apply orb_true_r|].
  destruct (fle_total a b Na H2) as [X|X]; [congruence|]. now rewrite X.
Qed.
Lemma ins_x_in c l d : In d (ins_x c l) -> d = c \/ In d l.
Proof. induction l as [|e l IH]; cbn [ins_x]; [intros [<-|[]]; auto|]. destruct (np_le _ _); intros [<-|H]; auto; try now right; left. destruct (IH H); auto. right. now right. Qed.
Lemma some_sort_by_x : exists f, sorts_by_x f.
Proof.
  exists isort_x. intros l. induction l as [|c l (P & S)]; [split; constructor|]. cbn [isort_x fold_right]. fold (isort_x l). split.
  - apply Permutation_trans with (c :: isort_x l); [|now constructor]. clear. induction (isort_x l) as [|d t IH]; [auto|]. cbn [ins_x].
    destruct (np_le _ _); auto. apply Permutation_trans with (d :: c :: t); [now constructor|constructor].
  - clear P. induction S as [|d t S IH F]; [repeat constructor|]. cbn [ins_x]. destruct (np_le (c_x c) (c_x d)) eqn:E.
    + constructor; [now constructor|]. constructor; auto. eapply Forall_impl; [|exact F]. intros e He. cbn beta in He. eapply np_le_trans; eauto.
    + constructor; auto. apply Forall_forall. intros e He. apply ins_x_in in He as [->|He]; [now apply np_le_total|]. rewrite Forall_forall in F. now apply F.
Qed.
