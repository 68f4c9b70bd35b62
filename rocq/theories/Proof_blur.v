(** Facts about the box blur in loops. *)
From Verif Require Import Model_blur Proof_seg3 Lib Base.
Local Open Scope Z_scope.

Definition only {A} (r : result A) : Prop := forall e, r = Exn e -> e = IndexError.
Lemma only_bind {A B} (m : result A) (k : A -> result B) : only m -> (forall a, only (k a)) -> only (bind m k).
Proof. intros H1 H2 e E. destruct m as [a|x]; cbn [bind] in E; [exact (H2 a e E)|]. apply H1. congruence. Qed.
Lemma only_ok {A} (a : A) : only (Ok a). Proof. intros e E. discriminate. Qed.
Lemma only_get {A} (l : list A) i : only (pyget l i). Proof. intros e E. exact (pyget_exn_only l i e E). Qed.
Lemma only_set {A} (l : list A) i v : only (pyset l i v). Proof. intros e E. unfold pyset in E. destruct (pyidx _ _); congruence. Qed.
Lemma only_fold {S A} (f : S -> A -> result S) l s : (forall s a, only (f s a)) -> only (foldM f l s).
Proof. intros H e E. eapply foldM_exn_only; [|exact E]. intros s0 a e0 _ X. exact (H s0 a e0 X). Qed.
Lemma row_only span imx src row i : only (blur_row span imx src row i).
Proof.
  unfold blur_row. repeat (apply only_bind; intros); try apply only_ok; try apply only_get; try apply only_set; apply only_fold; intros [r ac] j;
    repeat (apply only_bind; intros); try apply only_ok; try apply only_get; apply only_set.
Qed.
Lemma get_past {A} (l : list A) i : Z.of_nat (length l) <= i -> pyget l i = Exn IndexError.
Proof. intros H. unfold pyget, pyidx. destruct (Z.ltb_spec i (Z.of_nat (length l))); [lia|]. rewrite andb_false_r. destruct (Z.ltb_spec i 0); [lia|]. now rewrite andb_false_r. Qed.
Lemma bind_fails {A B} (m : result A) (k : A -> result B) : (forall a, exists e, k a = Exn e) -> exists e, bind m k = Exn e.
Proof. intros H. destruct m; cbn [bind]; eauto. Qed.
Lemma zrange_mem a b n : a <= n < b -> In n (zrange a b).
Proof. intros H. unfold zrange. apply in_map_iff. exists (Z.to_nat (n - a)). split; [lia|]. apply in_seq. lia. Qed.
(** the last row *)
Lemma last_row_fails span imx src row i : 1 <= span -> 1 <= imx -> Z.of_nat (length src) = imx * (i + 1) -> exists e, blur_row span imx src row i = Exn e.
Proof.
  intros HS HX HL. unfold blur_row. do 4 (apply bind_fails; intros). rewrite (foldM_exn _ IndexError); [cbn [bind]; eauto| |].
  - intros [r ac] j e _. revert e. change (only (bind (pyget src (i * imx + j - span - 1)) (fun a4 => bind (pyget src (i * imx + j + span)) (fun b => bind (pyset r (i * imx + j) ((ac - (a4 + b)) * bn span / (2 * (imx - j - 1) + 1))) (fun row0 => Ok (row0, ac - (a4 + b))))))).
    repeat (apply only_bind; intros); try apply only_ok; try apply only_get; apply only_set.
  - exists (imx - 1). split; [apply zrange_mem; lia|]. intros [r ac]. apply bind_fails. intros x. rewrite get_past by lia. cbn [bind]. eauto.
Qed.
Lemma blur_fails span imx imy src : 1 <= span -> 1 <= imx -> 1 <= imy -> Z.of_nat (length src) = imx * imy -> fast_box_blur_numba span imx imy src = Exn IndexError.
Proof.
  intros HS HX HY HL. unfold fast_box_blur_numba. rewrite (foldM_exn _ IndexError); [reflexivity| |].
  - intros r i e _. exact (row_only _ _ _ _ _ e).
  - exists (imy - 1). split; [apply zrange_mem; lia|]. intros r. apply last_row_fails; auto. rewrite HL. f_equal. lia.
Qed.

(** ---- half-width 0 ---- *)
Lemma clip_in n i : 0 <= i <= Z.of_nat n -> clip n i = Z.to_nat i.
Proof. intros H. unfold clip. destruct (Z.ltb_spec i 0); [lia|]. f_equal. lia. Qed.
Lemma set_slice_in {A} (l : list A) i j v : 0 <= i <= j -> j <= Z.of_nat (length l) -> Z.of_nat (length v) = j - i ->
  set_slice l i j v = Ok (firstn (Z.to_nat i) l ++ v ++ skipn (Z.to_nat j) l).
Proof. intros H1 H2 H3. unfold set_slice. rewrite !clip_in by lia. rewrite Nat.max_r by lia. replace (Nat.eqb (length v) (Z.to_nat j - Z.to_nat i)) with true; auto. symmetry. apply Nat.eqb_eq. lia. Qed.
Lemma slice_in {A} (l : list A) i j : 0 <= i <= j -> j <= Z.of_nat (length l) -> slice l i j = firstn (Z.to_nat j - Z.to_nat i) (skipn (Z.to_nat i) l).
Proof. intros H1 H2. unfold slice. rewrite !clip_in by lia. reflexivity. Qed.
Lemma slice_len {A} (l : list A) i j : 0 <= i <= j -> j <= Z.of_nat (length l) -> Z.of_nat (length (slice l i j)) = j - i.
Proof. intros H1 H2. rewrite slice_in by auto. rewrite firstn_length, skipn_length. lia. Qed.
Lemma vmap2_same f a b : length a = length b -> vmap2 f a b = Ok (map (fun xy => f (fst xy) (snd xy)) (combine a b)).
Proof. intros H. unfold vmap2. now rewrite H, Nat.eqb_refl. Qed.
Lemma add_sub : forall a b : list Z, length a = length b -> map (fun xy => fst xy + snd xy) (combine a (map (fun xy => fst xy - snd xy) (combine b a))) = b.
Proof. induction a as [|x a IH]; intros [|y b] H; try discriminate; auto. cbn [combine map fst snd]. f_equal; [lia|]. apply IH. now injection H. Qed.

(** agree on the first k entries *)
Definition agree (k : Z) (l m : list Z) : Prop := length l = length m /\ forall n, Z.of_nat n < k -> nth_error l n = nth_error m n.
Lemma agree_all k l m : Z.of_nat (length m) <= k -> agree k l m -> l = m.
Proof.
  intros H (A & B). apply nth_error_ext. intros n. destruct (Nat.lt_ge_cases n (length m)) as [L|L]; [apply B; lia|].
  rewrite (proj2 (nth_error_None m n) L). apply nth_error_None. lia.
Qed.
Section Zero.
Variables imx imy : Z.
Hypothesis HX : 1 <= imx.
Hypothesis HY : 1 <= imy.
Variable src : list Z.
Hypothesis HL : Z.of_nat (length src) = imx * imy.
Lemma src_get i : 0 <= i < imx * imy -> exists v, pyget src i = Ok v /\ nth_error src (Z.to_nat i) = Some v.
Proof.
  intros H. destruct (nth_error src (Z.to_nat i)) as [v|] eqn:E; [|apply nth_error_None in E; lia]. exists v. split; auto. apply pyget_nonneg; auto; lia.
Qed.
Lemma agree_set row k v : 0 <= k < imx * imy -> agree k row src -> nth_error src (Z.to_nat k) = Some v ->
  exists row', pyset row k v = Ok row' /\ agree (k + 1) row' src.
Proof.
  intros Hk (A & B) E. unfold pyset. rewrite pyidx_nonneg by lia. eexists. split; [reflexivity|]. split; [now rewrite upd_length|].
  intros n Hn. destruct (Nat.eq_dec n (Z.to_nat k)) as [->|D]; [rewrite nth_error_upd_eq by lia; auto|]. rewrite nth_error_upd_neq by auto. apply B. lia.
Qed.
Lemma row_copies row i : 0 <= i < imy -> agree (i * imx) row src -> exists row', blur_row 0 imx src row i = Ok row' /\ agree ((i + 1) * imx) row' src.
Proof.
  intros Hi HA. assert (B : 0 <= i * imx /\ i * imx + imx <= imx * imy) by nia. unfold blur_row.
  destruct (src_get (i * imx) ltac:(lia)) as (v & Ev & Nv). rewrite Ev. cbn [bind]. replace (v * bn 0) with v by (unfold bn; lia).
  destruct (agree_set row (i * imx) v ltac:(lia) HA Nv) as (row1 & -> & A1). cbn [bind].
  change (zrange 1 (0 + 1)) with (@nil Z). cbn [foldM bind]. change (0 + 1) with 1. rewrite Z.sub_0_r.
  match goal with |- context [foldM ?f (zrange 1 imx) (row1, v)] => destruct (loop_total (fun j (s : list Z * Z) => agree (i * imx + j) (fst s) src /\ nth_error src (Z.to_nat (i * imx + j - 1)) = Some (snd s)) f 1 imx (row1, v)) as ([r2 a2] & E & P); auto end.
  - split; [cbn [fst]; now replace (i * imx + 1) with (i * imx + 1) by lia|]. cbn [snd]. now replace (i * imx + 1 - 1) with (i * imx) by lia.
  - intros j [r ac] Hj (P1 & P2). cbn [fst snd] in P1, P2. rewrite Z.add_0_r, Z.sub_0_r.
    destruct (src_get (i * imx + j) ltac:(lia)) as (a & Ea & Na). destruct (src_get (i * imx + j - 1) ltac:(lia)) as (b & Eb & Nb). rewrite Ea. cbn [bind]. rewrite Eb. cbn [bind].
    rewrite Nb in P2. injection P2 as <-. replace (b + (a - b)) with a by lia.
    destruct (agree_set r (i * imx + j) a ltac:(lia) P1 Na) as (r' & -> & A'). cbn [bind]. eexists. split; [reflexivity|]. cbn [fst snd].
    replace (i * imx + (j + 1)) with (i * imx + j + 1) by lia. split; auto. now replace (i * imx + j + 1 - 1) with (i * imx + j) by lia.
  - rewrite E. cbn [bind]. assert (ZZ : zrange imx imx = []) by (unfold zrange; now rewrite Z.sub_diag). rewrite ZZ. cbn [foldM bind fst]. exists r2. split; auto. destruct P as (P & _). cbn [fst] in P.
    now replace ((i + 1) * imx) with (i * imx + imx) by lia.
Qed.
Definition R (i : Z) : list Z := slice src (i * imx) ((i + 1) * imx).
Lemma R_len i : 0 <= i < imy -> Z.of_nat (length (R i)) = imx.
Proof. intros H. unfold R. rewrite slice_len by nia. lia. Qed.
Lemma agree_row dest i : 0 <= i < imy -> agree (i * imx) dest src -> exists d', set_slice dest (i * imx) ((i + 1) * imx) (R i) = Ok d' /\ agree ((i + 1) * imx) d' src.
Proof.
  intros H (A & B). pose proof (R_len i H) as RL. rewrite set_slice_in by nia. eexists. split; [reflexivity|].
  assert (X1 : length (firstn (Z.to_nat (i * imx)) dest) = Z.to_nat (i * imx)) by (rewrite firstn_length; nia).
  split.
  - rewrite !app_length, X1, skipn_length. nia.
  - intros n Hn. destruct (Nat.lt_ge_cases n (Z.to_nat (i * imx))) as [L|L].
    + rewrite nth_error_app1 by lia. rewrite nth_error_firstn by lia. apply B. nia.
    + rewrite nth_error_app2 by lia. rewrite X1. rewrite nth_error_app1 by nia. unfold R. rewrite slice_in by nia.
      rewrite nth_error_firstn by nia. rewrite nth_error_skipn. f_equal. lia.
Qed.
Theorem blur_copies : fast_box_blur_numba 0 imx imy src = Ok src.
Proof.
  unfold fast_box_blur_numba.
  assert (A0 : agree (0 * imx) (repeat 0 (Z.to_nat (imx * imy))) src) by (split; [rewrite repeat_length; lia|intros n Hn; lia]).
  destruct (loop_total (fun i row => agree (i * imx) row src) (blur_row 0 imx src) 0 imy (repeat 0 (Z.to_nat (imx * imy)))) as (row & -> & P); [lia|exact A0|intros i s Hi; now apply row_copies|].
  cbn [bind]. apply agree_all in P; [|lia]. subst row. change (bnq 0) with 1. change (bn 0) with 1.
  assert (M1 : forall l, map (fun c => c / 1) l = l) by (intros l; rewrite <- (map_id l) at 2; apply map_ext; intros; apply Z.div_1_r).
  assert (E0 : slice src 0 imx = R 0) by (unfold R; f_equal; lia).
  assert (L0 := R_len 0 ltac:(lia)).
  rewrite E0. unfold set_slice at 1. rewrite repeat_length. rewrite !clip_in by lia. rewrite Nat.max_r by lia.
  replace (Nat.eqb (length (R 0)) (Z.to_nat imx - Z.to_nat 0)) with true by (symmetry; apply Nat.eqb_eq; lia). cbn [bind Z.to_nat firstn app].
  rewrite skipn_all2 by (rewrite repeat_length; lia). rewrite app_nil_r, M1.
  assert (A1 : agree (0 * imx) (repeat 0 (length src)) src) by (split; [apply repeat_length|intros n Hn; lia]).
  destruct (agree_row _ 0 ltac:(lia) A1) as (d1 & E1 & A2). rewrite Z.mul_0_l, Z.add_0_l, Z.mul_1_l in E1. rewrite E1. cbn [bind].
  change (zrange 1 (0 + 1)) with (@nil Z). cbn [foldM bind rev]. rewrite Z.sub_0_r. change (0 + 1) with 1.
  match goal with |- context [foldM ?f (zrange 1 imy) (R 0, d1)] => destruct (loop_total (fun i (s : list Z * list Z) => fst s = R (i - 1) /\ agree (i * imx) (snd s) src) f 1 imy (R 0, d1)) as ([c d] & -> & P); auto end.
  - intros i [c d] Hi (P1 & P2). cbn [fst snd] in P1, P2. subst c. rewrite Z.sub_0_r, Z.add_0_r. cbv zeta.
    assert (Q1 : slice src ((i - 1) * imx) (i * imx) = R (i - 1)) by (unfold R; f_equal; lia). rewrite Q1. fold (R i).
    pose proof (R_len i ltac:(lia)). pose proof (R_len (i - 1) ltac:(lia)).
    assert (LE : length (R (i - 1)) = length (R i)) by lia.
    rewrite (vmap2_same Z.sub) by auto. cbn [bind]. rewrite (vmap2_same Z.add) by (rewrite map_length, combine_length; lia). cbn [bind].
    rewrite (add_sub (R (i - 1)) (R i) LE), M1. destruct (agree_row d i ltac:(lia) P2) as (d' & -> & A'). cbn [bind]. eexists. split; [reflexivity|]. cbn [fst snd].
    split; [f_equal; lia|auto].
  - cbn [bind snd fst]. destruct P as (_ & P). cbn [snd] in P. f_equal. apply (agree_all _ _ _ (Z.eq_le_incl _ _ (eq_trans HL (Z.mul_comm _ _))) P).
Qed.
End Zero.
