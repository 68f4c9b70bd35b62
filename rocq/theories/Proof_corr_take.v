From Coq Require Import Permutation Sorted.
From Verif Require Import Base F64 Model_corr Spec_corr.
Local Open Scope Z_scope.

Lemma getu_ok tus cam t u :
  0 <= cam -> 0 <= t ->
  (getu tus cam t = Ok u <->
   exists row, nth_error tus (Z.to_nat cam) = Some row /\ nth_error row (Z.to_nat t) = Some u).
Proof.
  intros Hc Ht. unfold getu. split.
  - intros H. apply bind_ok in H as (row & H1 & H2).
    apply pyget_ok_iff in H1; auto. apply pyget_ok_iff in H2; auto. eauto.
  - intros (row & H1 & H2). apply (pyget_ok_iff tus cam row Hc) in H1. rewrite H1. simpl.
    now apply pyget_ok_iff.
Qed.

Lemma has_used_spec nc tus c b :
  has_used_target nc tus c = Ok b ->
  (b = true -> exists cam k, member nc c cam k /\ used tus cam k) /\
  (b = false -> forall cam k, member nc c cam k -> ~ used tus cam k).
Proof.
  unfold has_used_target. intros H.
  pose proof (foldM_inv (fun done (b : bool) =>
     (b = true -> exists cam k, member nc c cam k /\ used tus cam k) /\
     (b = false -> forall cam k, In cam done -> member nc c cam k -> ~ used tus cam k))
     _ _ _ _ H) as G. simpl in G.
  lapply G; [clear G; intros G|split; [discriminate|contradiction]].
  lapply G; [clear G; intros (G1 & G2)|].
  { split; auto. intros Hb cam k Hm. apply (G2 Hb cam k); auto.
    apply In_zrange. unfold member in Hm. lia. }
  intros done cam rest s s1 E (I1 & I2) Hs.
  apply zrange_split in E as (_ & Hcam & _).
  destruct s.
  { inversion Hs; subst. split; auto. discriminate. }
  apply bind_ok in Hs as (tnum & Ht & Hs).
  apply pyget_ok_iff in Ht; [|lia].
  destruct (Z.ltb_spec (-1) tnum) as [Hpos|Hneg].
  - apply bind_ok in Hs as (u & Hu & Hs). inversion Hs; subst; clear Hs.
    apply getu_ok in Hu as (row & Hr & Hu); try lia.
    destruct (Z.ltb_spec 0 u) as [Hu0|Hu0]; split; intros Hb; try discriminate.
    + exists cam, tnum. split.
      * unfold member; repeat split; auto; lia.
      * unfold used; repeat split; try lia; eauto.
    + intros cam' k Hin Hm. apply in_app_or in Hin as [Hin|[<-|[]]]; [now apply I2|].
      destruct Hm as (_ & Hk & Hm). rewrite Ht in Hm. inversion Hm; subst.
      intros (_ & _ & row' & u' & R1 & R2 & R3).
      rewrite Hr in R1; inversion R1; subst. rewrite Hu in R2; inversion R2; subst. lia.
  - inversion Hs; subst; clear Hs. split; [discriminate|]. intros _ cam' k Hin Hm.
    apply in_app_or in Hin as [Hin|[<-|[]]]; [now apply I2|].
    destruct Hm as (_ & Hk & Hm). rewrite Ht in Hm. inversion Hm; subst. lia.
Qed.

(** dimensions of the usage table *)
Definition same_dims (a b : list (list Z)) : Prop :=
  map (@length Z) a = map (@length Z) b.

Lemma map_upd {A B} (f : A -> B) l k v : map f (upd l k v) = upd (map f l) k (f v).
Proof. revert k; induction l as [|h t IH]; intros [|k]; simpl; auto. now rewrite IH. Qed.

Lemma upd_same {A} (l : list A) k v : nth_error l k = Some v -> upd l k v = l.
Proof.
  revert k; induction l as [|h t IH]; intros [|k] H; simpl in *; try discriminate; auto.
  - congruence.
  - f_equal; auto.
Qed.

Lemma In_upd {A} (l : list A) k v x : In x (upd l k v) -> x = v \/ In x l.
Proof.
  revert k; induction l as [|h t IH]; intros [|k]; simpl; auto.
  - intros [->|H]; auto.
  - intros [->|H]; auto. apply IH in H as [->|H]; auto.
Qed.

Definition bump (tus : list (list Z)) (cam t u : Z) row : list (list Z) :=
  upd tus (Z.to_nat cam) (upd row (Z.to_nat t) (u + 1)).

Lemma bump_used tus cam t u row c' k :
  0 <= cam -> 0 <= t -> 0 <= u ->
  nth_error tus (Z.to_nat cam) = Some row -> nth_error row (Z.to_nat t) = Some u ->
  (used (bump tus cam t u row) c' k <-> used tus c' k \/ (c' = cam /\ k = t)).
Proof.
  intros Hc Ht Hu Hr Hn.
  assert (L1 : (Z.to_nat cam < length tus)%nat) by (apply nth_error_Some; congruence).
  assert (L2 : (Z.to_nat t < length row)%nat) by (apply nth_error_Some; congruence).
  unfold used, bump. split.
  - intros (C0 & K0 & r & v & E1 & E2 & Hv).
    rewrite nth_error_upd in E1.
    destruct (Nat.eqb_spec (Z.to_nat c') (Z.to_nat cam)) as [E|E].
    + assert (c' = cam) by lia. subst.
      apply Nat.ltb_lt in L1. rewrite L1 in E1. inversion E1; subst; clear E1.
      rewrite nth_error_upd in E2.
      destruct (Nat.eqb_spec (Z.to_nat k) (Z.to_nat t)) as [E3|E3].
      * right; lia.
      * left. repeat split; auto. exists row, v; auto.
    + left. repeat split; auto. exists r, v; auto.
  - intros [(C0 & K0 & r & v & E1 & E2 & Hv)|(-> & ->)].
    + repeat split; auto.
      destruct (Nat.eq_dec (Z.to_nat c') (Z.to_nat cam)) as [E|E].
      * assert (c' = cam) by lia. subst. rewrite Hr in E1; inversion E1; subst r.
        exists (upd row (Z.to_nat t) (u + 1)).
        destruct (Nat.eq_dec (Z.to_nat k) (Z.to_nat t)) as [E3|E3].
        { exists (u + 1). rewrite nth_error_upd_eq by auto. rewrite E3, nth_error_upd_eq by auto.
          repeat split; auto. lia. }
        { exists v. rewrite nth_error_upd_eq by auto. rewrite nth_error_upd_neq by auto. auto. }
      * exists r, v. rewrite nth_error_upd_neq by auto. auto.
    + repeat split; auto. exists (upd row (Z.to_nat t) (u + 1)), (u + 1).
      rewrite !nth_error_upd_eq by auto. repeat split; auto. lia.
Qed.

Lemma mark_spec nc tus c tus' :
  marks_ok tus -> mark_targets nc tus c = Ok tus' ->
  marks_ok tus' /\ same_dims tus' tus /\
  (forall cam k, used tus' cam k <-> used tus cam k \/ member nc c cam k).
Proof.
  intros Hok. unfold mark_targets. intros H.
  pose proof (foldM_inv (fun done t =>
     marks_ok t /\ same_dims t tus /\
     (forall cam k, used t cam k <-> used tus cam k \/ (In cam done /\ member nc c cam k)))
     _ _ _ _ H) as G. simpl in G.
  lapply G; [clear G; intros G|].
  2:{ split; [auto|split; [reflexivity|]]. intros; tauto. }
  lapply G; [clear G; intros (G1 & G2 & G3)|].
  { split; [auto|split; [auto|]]. intros cam k. rewrite G3. split; [tauto|].
    intros [Hu|Hm]; auto. right; split; auto.
    apply In_zrange. unfold member in Hm. lia. }
  clear H.
  intros done cam rest s s1 E (I1 & I2 & I3) Hs.
  apply zrange_split in E as (_ & Hcam & _).
  apply bind_ok in Hs as (tnum & Ht & Hs). apply pyget_ok_iff in Ht; [|lia].
  destruct (Z.ltb_spec (-1) tnum) as [Hp|Hp].
  - apply bind_ok in Hs as (row & Hr & Hs). apply pyget_ok_iff in Hr; [|lia].
    apply bind_ok in Hs as (u & Hu & Hs). apply pyget_ok_iff in Hu; [|lia].
    apply bind_ok in Hs as (row' & Hr' & Hs). apply pyset_ok in Hr' as (L2 & ->); [|lia].
    apply pyset_ok in Hs as (L1 & ->); [|lia].
    fold (bump s cam tnum u row).
    assert (0 <= u) by (eapply I1; eauto using nth_error_In).
    split; [|split].
    + intros r v Hin Hv. unfold bump in Hin. apply In_upd in Hin as [->|Hin]; [|eauto].
      apply In_upd in Hv as [->|Hv]; [lia|]. eapply I1; eauto using nth_error_In.
    + unfold same_dims, bump in *. rewrite map_upd, upd_length.
      rewrite upd_same; auto. now rewrite nth_error_map, Hr.
    + intros c' k. rewrite bump_used by (auto; lia). rewrite I3. split.
      * intros [[?|[? ?]]|[-> ->]]; auto.
        { right. split; auto. apply in_or_app; auto. }
        right. split; [apply in_or_app; simpl; auto|]. unfold member; repeat split; auto; lia.
      * intros [?|[Hin Hm]]; auto. apply in_app_or in Hin as [Hin|[<-|[]]]; auto.
        right. split; auto. destruct Hm as (_ & _ & Hm). congruence.
  - inversion Hs; subst; clear Hs. split; [|split]; auto. intros c' k. rewrite I3. split.
    + intros [?|[? ?]]; auto. right; split; auto. apply in_or_app; auto.
    + intros [?|[Hin Hm]]; auto. apply in_app_or in Hin as [Hin|[<-|[]]]; auto.
      exfalso. destruct Hm as (_ & ? & Hm). rewrite Ht in Hm. inversion Hm; lia.
Qed.

Lemma firstn_upd {A} (l : list A) k v n : (n <= k)%nat -> firstn n (upd l k v) = firstn n l.
Proof.
  revert k n; induction l as [|h t IH]; intros [|k] [|n] H; simpl; auto; try lia.
  rewrite IH by lia. reflexivity.
Qed.
Lemma skipn_upd {A} (l : list A) k v n : (k < n)%nat -> skipn n (upd l k v) = skipn n l.
Proof.
  revert k n; induction l as [|h t IH]; intros [|k] [|n] H; simpl; auto; try lia.
  apply IH; lia.
Qed.
Lemma firstn_S_upd {A} (l : list A) k v :
  (k < length l)%nat -> firstn (S k) (upd l k v) = firstn k l ++ [v].
Proof.
  revert k; induction l as [|h t IH]; intros [|k] H; cbn [upd length firstn app] in *; try lia; auto.
  f_equal. apply IH. lia.
Qed.

Lemma take_loop nc l : forall n0 dst tus n dst' tus',
  0 <= n0 -> marks_ok tus ->
  foldM (take_step nc) l (n0, dst, tus) = Ok (n, dst', tus') ->
  exists mask,
    length mask = length l /\
    let tk := select mask l in
    n = n0 + Z.of_nat (length tk) /\
    firstn (Z.to_nat n) dst' = firstn (Z.to_nat n0) dst ++ tk /\
    skipn (Z.to_nat n) dst' = skipn (Z.to_nat n) dst /\
    length dst' = length dst /\
    ((Z.to_nat n0 <= length dst)%nat -> (Z.to_nat n <= length dst)%nat) /\
    marks_ok tus' /\ same_dims tus' tus /\
    (forall cam k, used tus' cam k <-> used tus cam k \/ exists a, In a tk /\ member nc a cam k) /\
    (forall a cam k, In a tk -> member nc a cam k -> ~ used tus cam k) /\
    (forall i j a b, (i < j)%nat -> nth_error tk i = Some a -> nth_error tk j = Some b -> ~ clash nc a b) /\
    (forall i c, nth_error l i = Some c -> nth_error mask i = Some false ->
       (exists cam k, member nc c cam k /\ used tus cam k) \/
       exists j b, (j < i)%nat /\ nth_error mask j = Some true /\ nth_error l j = Some b /\ clash nc c b).
Proof.
  induction l as [|c l IH]; intros n0 dst tus n dst' tus' Hn0 Hok H; simpl in H.
  - inversion H; subst. exists []. cbn [select length Z.of_nat]. split; auto. split; [lia|].
    rewrite app_nil_r. do 5 (split; [auto|]). split; [reflexivity|].
    split; [intros cam k; split; [auto|intros [?|(a & [] & _)]; auto]|].
    split; [intros a cam k []|].
    split; [intros [|i] j a b _ Hx; discriminate|]. intros [|i] c Hx; discriminate.
  - apply bind_ok in H as (s1 & Hs & H).
    unfold take_step in Hs. apply bind_ok in Hs as (b & Hb & Hs).
    apply has_used_spec in Hb as (Ht & Hf). destruct b.
    + inversion Hs; subst; clear Hs.
      destruct (IH _ _ _ _ _ _ Hn0 Hok H) as (mask & Lm & R). exists (false :: mask).
      split; [simpl; congruence|]. cbn [select].
      destruct R as (R1 & R2 & R3 & R4 & R5 & R6 & R7 & R8 & R9 & R10 & R11).
      do 10 (split; [assumption|]).
      intros [|i] x Hx Hm; simpl in *.
      * inversion Hx; subst. left. apply Ht; auto.
      * destruct (R11 _ _ Hx Hm) as [?|(j & b & Hj & M1 & M2 & M3)]; auto.
        right. exists (S j), b. repeat split; auto; lia.
    + apply bind_ok in Hs as (tus1 & Hmk & Hs).
      apply bind_ok in Hs as (dst1 & Hd & Hs). inversion Hs; subst; clear Hs.
      apply pyset_ok in Hd as (Ld & ->); auto.
      apply mark_spec in Hmk as (M1 & M2 & M3); auto.
      assert (Hn1 : 0 <= n0 + 1) by lia.
      destruct (IH _ _ _ _ _ _ Hn1 M1 H) as (mask & Lm & R). exists (true :: mask).
      split; [simpl; congruence|]. cbn [select].
      destruct R as (R1 & R2 & R3 & R4 & R5 & R6 & R7 & R8 & R9 & R10 & R11).
      assert (E1 : Z.to_nat (n0 + 1) = S (Z.to_nat n0)) by lia.
      split; [cbn [length]; lia|].
      split. { rewrite R2, E1, firstn_S_upd by auto. now rewrite <- app_assoc. }
      split. { rewrite R3. rewrite skipn_upd; auto. lia. }
      split. { now rewrite R4, upd_length. }
      split. { intros _. rewrite upd_length in R5. apply R5. lia. }
      split; auto.
      split. { unfold same_dims in *. congruence. }
      split.
      { intros cam k. rewrite R8, M3. split.
        - intros [[?|?]|(a & ? & ?)]; auto.
          + right. exists c; simpl; auto.
          + right. exists a; simpl; auto.
        - intros [?|(a & [<-|Hin] & ?)]; auto. right. eauto. }
      split.
      { intros a cam k [<-|Hin] Hm Hu; [eapply Hf; eauto|].
        eapply R9; eauto. apply M3; auto. }
      split.
      { intros [|i] [|j] a b Hij Ha Hb (cam & k & C1 & C2); simpl in *; try lia.
        - inversion Ha; subst. eapply (R9 b cam k); eauto using nth_error_In. apply M3; auto.
        - eapply (R10 i j a b); eauto; try lia. exists cam, k; auto. }
      intros [|i] x Hx Hm; simpl in *; [discriminate|].
      destruct (R11 _ _ Hx Hm) as [(cam & k & C1 & C2)|(j & b & Hj & N1 & N2 & N3)]; auto.
      * apply M3 in C2 as [C2|C2]; [left; eauto|].
        right. exists O, c. repeat split; auto; try lia. exists cam, k; auto.
      * right. exists (S j), b. repeat split; auto; lia.
Qed.

Lemma StronglySorted_rev_desc l :
  StronglySorted (fun a b => np_le (tcorr a) (tcorr b) = true) l -> descending (rev l).
Proof.
  intros Hs i j a b Hij Ha Hb.
  assert (Lj : (j < length l)%nat).
  { rewrite <- rev_length. apply nth_error_Some. congruence. }
  assert (G : forall (l : list ntupel) i j a b, StronglySorted (fun a b => np_le (tcorr a) (tcorr b) = true) l ->
     (i < j)%nat -> nth_error l i = Some a -> nth_error l j = Some b -> np_le (tcorr a) (tcorr b) = true).
  { clear. induction l as [|h t IH]; intros i j a b Hs Hij Ha Hb; [destruct i; discriminate|].
    inversion Hs as [|? ? Hs' Hf]; subst.
    destruct i as [|i], j as [|j]; simpl in *; try lia.
    - inversion Ha; subst. rewrite Forall_forall in Hf. apply Hf. eauto using nth_error_In.
    - eapply (IH i j); eauto; lia. }
  assert (N : forall i, (i < length l)%nat -> nth_error (rev l) i = nth_error l (length l - S i)).
  { clear. intros i Hi. destruct (nth_error l (length l - S i)) as [x|] eqn:E.
    - assert (E2 : nth (length l - S i) l x = x) by (apply nth_error_nth; auto).
      rewrite (nth_error_nth' (rev l) x) by (rewrite rev_length; auto).
      rewrite rev_nth by auto. now rewrite E2.
    - apply nth_error_None in E. lia. }
  rewrite N in Ha by lia. rewrite N in Hb by lia.
  eapply (G l (length l - S j)%nat (length l - S i)%nat); eauto; lia.
Qed.

Lemma nth_select_true {A} (mask : list bool) (l : list A) j b :
  nth_error mask j = Some true -> nth_error l j = Some b -> In b (select mask l).
Proof.
  revert l j; induction mask as [|m mask IH]; intros [|x l] [|j] H1 H2; simpl in *; try discriminate.
  - inversion H1; inversion H2; subst; simpl; auto.
  - destruct m; simpl; eauto.
Qed.

Lemma select_In {A} (mask : list bool) (l : list A) b : In b (select mask l) -> In b l.
Proof.
  revert l; induction mask as [|m mask IH]; intros [|x l] H; simpl in *; try contradiction.
  destruct m; simpl in *; [destruct H|]; auto.
Qed.

(** Full characterisation of take_best_candidates. *)
Lemma take_best_spec srt src dst nc tus n src' dst' tus' :
  sorts srt -> marks_ok tus ->
  take_best_candidates srt src dst nc tus = Ok (n, src', dst', tus') ->
  exists mask,
    Permutation src' src /\ descending src' /\ length mask = length src' /\ 0 <= n /\
    firstn (Z.to_nat n) dst' = select mask src' /\
    Z.to_nat n = length (select mask src') /\
    skipn (Z.to_nat n) dst' = skipn (Z.to_nat n) dst /\
    length dst' = length dst /\ (Z.to_nat n <= length dst)%nat /\
    marks_ok tus' /\ same_dims tus' tus /\
    (forall cam k, used tus' cam k <-> used tus cam k \/ exists a, In a (select mask src') /\ member nc a cam k) /\
    (forall a cam k, In a (select mask src') -> member nc a cam k -> ~ used tus cam k) /\
    (forall i j a b, i <> j -> nth_error (select mask src') i = Some a -> nth_error (select mask src') j = Some b -> ~ clash nc a b) /\
    (forall i c, nth_error src' i = Some c -> nth_error mask i = Some false ->
       (exists cam k, member nc c cam k /\ used tus cam k) \/
       exists j b, (j < i)%nat /\ nth_error mask j = Some true /\ nth_error src' j = Some b /\ clash nc c b).
Proof.
  intros Hs Hok H. unfold take_best_candidates in H.
  apply bind_ok in H as ([[n1 d1] t1] & H & E). inversion E; subst; clear E.
  destruct (Hs src) as (Hp & Hsort).
  apply take_loop in H as (mask & Lm & R); auto; try lia.
  destruct R as (R1 & R2 & R3 & R4 & R5 & R6 & R7 & R8 & R9 & R10 & R11).
  exists mask.
  split. { eapply Permutation_trans; [symmetry; apply Permutation_rev|exact Hp]. }
  split. { now apply StronglySorted_rev_desc. }
  split; auto. split; [lia|]. simpl in R2. split; auto. split; [lia|].
  split; auto. split; auto. split; [apply R5; lia|]. split; auto. split; auto. split; auto. split; auto.
  split; auto.
  intros i j a b Hij Ha Hb. destruct (Nat.lt_total i j) as [L|[L|L]]; [eauto|contradiction|].
  intros (cam & k & C1 & C2). eapply (R10 j i b a); eauto. exists cam, k; auto.
Qed.
