From Coq Require Import Permutation Sorted.
From Verif Require Import Base F64 Model_corr Spec_corr Proof_corr_take Proof_corr_loops Proof_corr_three Proof_corr_pairs.
Local Open Scope Z_scope.


Lemma same_dims_table nc a b : same_dims a b -> table_dims nc b -> table_dims nc a.
Proof.
  unfold same_dims, table_dims. intros H (L & R). split.
  - rewrite <- L. rewrite <- (map_length (@length Z) a), H. apply map_length.
  - intros row Hin. apply (in_map (@length Z)) in Hin. rewrite H in Hin.
    apply in_map_iff in Hin as (r & <- & Hr). auto.
Qed.


Lemma table_row nc tus cam k : table_dims nc tus -> 0 <= cam < nc -> 0 <= k < NMAX ->
  exists row u, nth_error tus (Z.to_nat cam) = Some row /\ nth_error row (Z.to_nat k) = Some u /\
    length row = Z.to_nat NMAX.
Proof.
  intros (L & R) Hc Hk. destruct (nth_error tus (Z.to_nat cam)) as [row|] eqn:E.
  2:{ apply nth_error_None in E. lia. }
  assert (Lr : length row = Z.to_nat NMAX) by (apply R; eauto using nth_error_In).
  destruct (nth_error row (Z.to_nat k)) as [u|] eqn:E2.
  2:{ apply nth_error_None in E2. rewrite Lr in E2. lia. }
  eauto.
Qed.

Lemma has_used_total nc tus c : table_dims nc tus -> fits nc c ->
  exists b, has_used_target nc tus c = Ok b.
Proof.
  intros HT (F1 & F2). unfold has_used_target.
  destruct (foldM_total (fun _ (_ : bool) => True)
    (fun (b : bool) cam => if b then Ok b else do tnum <- pyget (tp c) cam;
      if -1 <? tnum then do u <- getu tus cam tnum; Ok (0 <? u) else Ok false) (zrange 0 nc) false) as (b & Hb & _); eauto.
  intros done cam rest s E _. apply zrange_split in E as (_ & Hc & _).
  destruct s; [eauto|].
  destruct (pyget_in_range (tp c) cam ltac:(lia)) as (t & -> & Ht). cbn [bind].
  destruct (Z.ltb_spec (-1) t); [|eauto].
  destruct (table_row nc tus cam t HT Hc) as (row & u & R1 & R2 & _).
  { split; [lia|]. apply (F2 cam). unfold member. repeat split; auto; lia. }
  assert (G : getu tus cam t = Ok u) by (apply getu_ok; try lia; eauto).
  rewrite G. cbn [bind]. eauto.
Qed.

Lemma mark_total nc tus c : table_dims nc tus -> fits nc c ->
  exists tus', mark_targets nc tus c = Ok tus'.
Proof.
  intros HT (F1 & F2). unfold mark_targets.
  destruct (foldM_total (fun _ t => table_dims nc t)
    (fun tus cam => do tnum <- pyget (tp c) cam;
    if -1 <? tnum then do row <- pyget tus cam; do u <- pyget row tnum;
      do row' <- pyset row tnum (u + 1); pyset tus cam row' else Ok tus) (zrange 0 nc) tus HT) as (b & Hb & _); eauto.
  intros done cam rest s E HTs. apply zrange_split in E as (_ & Hc & _).
  destruct (pyget_in_range (tp c) cam ltac:(lia)) as (t & -> & Ht). cbn [bind].
  destruct (Z.ltb_spec (-1) t); [|eauto].
  assert (t < NMAX) by (apply (F2 cam); unfold member; repeat split; auto; lia).
  destruct (table_row nc s cam t HTs Hc ltac:(lia)) as (row & u & R1 & R2 & R3).
  rewrite (pyget_nonneg s cam row) by (auto; lia). cbn [bind].
  rewrite (pyget_nonneg row t u) by (auto; lia). cbn [bind].
  rewrite pyset_in_range by lia. cbn [bind].
  assert (Z.to_nat cam < length s)%nat by (apply nth_error_Some; congruence).
  rewrite pyset_in_range by lia. eexists. split; [reflexivity|].
  apply (same_dims_table nc _ s); auto. unfold same_dims. rewrite map_upd, upd_length.
  apply upd_same. now rewrite nth_error_map, R1.
Qed.


Lemma pigeon nc l : 0 <= nc -> (forall c, In c l -> has_member nc c /\ fits nc c) -> disjoint_cliques nc l ->
  Z.of_nat (length l) <= nc * NMAX.
Proof.
  intros Hnc Hm Hd.
  assert (G : exists codes, length codes = length l /\ NoDup codes /\
     (forall x, In x codes -> 0 <= x < nc * NMAX) /\
     (forall x, In x codes -> exists c cam k, In c l /\ member nc c cam k /\ x = cam * NMAX + k)).
  { induction l as [|c l IH].
    - exists []. split; auto. split; [constructor|]. split; intros ? [].
    - destruct IH as (codes & L & ND & R & S).
      + intros; apply Hm; simpl; auto.
      + intros i j a b Hij Ha Hb. apply (Hd (S i) (S j) a b); auto.
      + destruct (Hm c) as ((cam & k & Mb) & F1 & F2); [simpl; auto|].
        assert (k < NMAX) by eauto. assert (Mb' := Mb). destruct Mb' as (M1 & M2 & M3).
        exists (cam * NMAX + k :: codes). split; [simpl; congruence|]. split; [|split].
        * constructor; auto. intros Hin. apply S in Hin as (c' & cam' & k' & Hin' & Mb' & E).
          destruct (In_nth_error _ _ Hin') as (j & Hj).
          assert (k' < NMAX).
          { destruct (Hm c') as (_ & _ & F2'); [simpl; auto|]. eauto. }
          assert (M' := Mb'). destruct M' as (M1' & M2' & M3').
          assert (cam' = cam /\ k' = k) by (unfold NMAX in *; lia).
          destruct H1; subst.
          apply (Hd 0%nat (Datatypes.S j) c c'); auto. exists cam, k; auto.
        * intros x [<-|Hx]; auto. unfold NMAX in *; nia.
        * intros x [<-|Hx]; [exists c, cam, k; simpl; auto|].
          apply S in Hx as (c' & cam' & k' & ? & ? & ?). exists c', cam', k'. simpl; auto. }
  destruct G as (codes & L & ND & R & _). rewrite <- L.
  assert (length codes <= length (zrange 0 (nc * NMAX)))%nat.
  { apply NoDup_incl_length; auto. intros x Hx. apply In_zrange. auto. }
  rewrite zrange_length in H. unfold NMAX in *. lia.
Qed.

(** selection loop succeeds when there is room for all disjoint cliques *)
Lemma take_loop_total nc l : forall n0 dst tus (L : list ntupel),
  0 <= nc -> 0 <= n0 -> marks_ok tus -> table_dims nc tus ->
  (forall c, In c l -> has_member nc c /\ fits nc c) ->
  (forall c, In c L -> has_member nc c /\ fits nc c) -> disjoint_cliques nc L ->
  (forall a cam k, In a L -> member nc a cam k -> used tus cam k) ->
  nc * NMAX <= Z.of_nat (length L) - n0 + Z.of_nat (length dst) ->
  exists r, foldM (take_step nc) l (n0, dst, tus) = Ok r.
Proof.
  induction l as [|c l IH]; intros n0 dst tus L Hnc Hn0 Hmk HT Hl HL HdL Hu Hroom; [simpl; eauto|].
  destruct (Hl c) as (Hc & Fc); [simpl; auto|].
  cbn [foldM]. unfold take_step at 1.
  destruct (has_used_total nc tus c HT Fc) as (b & Hb). rewrite Hb. cbn [bind].
  apply has_used_spec in Hb as (Hbt & Hbf). destruct b.
  - cbn [bind]. apply (IH n0 dst tus L); auto. intros; apply Hl; simpl; auto.
  - destruct (mark_total nc tus c HT Fc) as (tus' & Ht). rewrite Ht. cbn [bind].
    apply mark_spec in Ht as (M1 & M2 & M3); auto.
    assert (HdL' : disjoint_cliques nc (L ++ [c])).
    { assert (Hcl : forall a, In a L -> ~ clash nc a c).
      { intros a Ha (cam & k & C1 & C2). eapply (Hbf eq_refl cam k); eauto. }
      intros i j a b Hij Ha Hb.
      destruct (Nat.lt_ge_cases i (length L)) as [Li|Li]; destruct (Nat.lt_ge_cases j (length L)) as [Lj|Lj].
      - rewrite nth_error_app1 in Ha, Hb by auto. apply (HdL i j a b); auto.
      - rewrite nth_error_app1 in Ha by auto. rewrite nth_error_app2 in Hb by auto.
        destruct (j - length L)%nat as [|n]; simpl in Hb; [|destruct n; discriminate].
        inversion Hb; subst. apply Hcl. eauto using nth_error_In.
      - rewrite nth_error_app1 in Hb by auto. rewrite nth_error_app2 in Ha by auto.
        destruct (i - length L)%nat as [|n]; simpl in Ha; [|destruct n; discriminate].
        inversion Ha; subst. intros (cam & k & C1 & C2). apply (Hcl b); eauto using nth_error_In.
        exists cam, k; auto.
      - rewrite nth_error_app2 in Ha, Hb by auto. exfalso.
        destruct (i - length L)%nat as [|n] eqn:Ei; simpl in Ha; [|destruct n; discriminate].
        destruct (j - length L)%nat as [|n] eqn:Ej; simpl in Hb; [|destruct n; discriminate]. lia. }
    assert (HL' : forall x, In x (L ++ [c]) -> has_member nc x /\ fits nc x).
    { intros x Hx. apply in_app_or in Hx as [Hx|[<-|[]]]; auto. }
    pose proof (pigeon nc (L ++ [c]) Hnc HL' HdL') as Hp. rewrite app_length in Hp. simpl in Hp.
    rewrite pyset_in_range by lia. cbn [bind].
    apply (IH (n0 + 1) _ tus' (L ++ [c])); auto; try lia.
    + eapply same_dims_table; eauto.
    + intros; apply Hl; simpl; auto.
    + intros a cam k Ha Hm. apply in_app_or in Ha as [Ha|[<-|[]]]; apply M3; eauto.
    + rewrite app_length, upd_length. simpl. lia.
Qed.

(** ---- one phase ---- *)
Definition blocked (nc : Z) (tus : list (list Z)) (c : ntupel) : Prop :=
  exists cam k, member nc c cam k /\ used tus cam k.

Record inv (nc : Z) (st : list ntupel * list ntupel * list (list Z) * list Z) (L : list ntupel) : Prop := {
  i_con0 : length (fst (fst (fst st))) = Z.to_nat (NMAX * nc);
  i_sc : scratch_ok (fst (fst (fst st)));
  i_con : length (snd (fst (fst st))) = Z.to_nat (NMAX * nc);
  i_pre : firstn (length L) (snd (fst (fst st))) = L;
  i_room : (length L <= Z.to_nat (NMAX * nc))%nat;
  i_marks : marks_ok (snd (fst st));
  i_dims : table_dims nc (snd (fst st));
  i_used : forall cam k, used (snd (fst st)) cam k <-> exists a, In a L /\ member nc a cam k;
  i_L : forall c, In c L -> has_member nc c /\ fits nc c;
  i_disj : disjoint_cliques nc L;
  i_mc : length (snd st) = 4%nat /\ nth_error (snd st) 3 = Some (Z.of_nat (length L)) }.

Lemma firstn_app_exact {A} (l1 l2 : list A) : firstn (length l1) (l1 ++ l2) = l1.
Proof. rewrite firstn_app, Nat.sub_diag, firstn_all. simpl. apply app_nil_r. Qed.

Lemma phase_ok srt slot nc sc n con0 con tim mc L :
  sorts srt -> 0 <= nc -> 0 <= slot < 3 ->
  inv nc (con0, con, tim, mc) L -> (slot = 0 -> L = []) ->
  length sc = Z.to_nat (NMAX * nc) -> scratch_ok sc ->
  (forall c, In c sc -> has_member nc c /\ fits nc c) ->
  exists con0' con' tim' M,
    phase srt slot nc (sc, n) (con0, con, tim, mc) =
      Ok (con0', con', tim', upd (upd mc (Z.to_nat slot) (Z.of_nat (length M))) 3 (Z.of_nat (length (L ++ M)))) /\
    inv nc (con0', con', tim', upd (upd mc (Z.to_nat slot) (Z.of_nat (length M))) 3 (Z.of_nat (length (L ++ M)))) (L ++ M) /\
    Permutation con0' sc /\
    (forall c, In c M -> In c sc /\ ~ blocked nc tim c) /\
    (forall c, In c con0' -> blocked nc tim' c) /\ descending M /\
    (forall c, In c sc -> In c M \/ blocked nc tim c \/
        exists b, In b M /\ clash nc c b /\ np_le (tcorr c) (tcorr b) = true).
Proof.
  intros Hs Hnc Hslot I HL Lsc Hsc Hmem. destruct I as [I1 I2 I3 I4 I5 I6 I7 I8 I9 I10 (I11 & I12)].
  cbn [fst snd] in *. unfold phase.
  assert (Eoff : (if slot =? 0 then Ok 0 else pyget mc 3) = Ok (Z.of_nat (length L))).
  { destruct (Z.eqb_spec slot 0).
    - rewrite HL by auto. reflexivity.
    - apply pyget_nonneg; [lia|]. exact I12. }
  rewrite Eoff. cbn [bind]. clear Eoff.
  unfold view_from, write_view. rewrite Nat2Z.id.
  destruct (take_loop_total nc (rev (srt sc)) 0 (skipn (length L) con) tim L) as (r & Hr); auto; try lia.
  { intros c Hc. apply Hmem. apply in_rev in Hc. eapply Permutation_in; [apply (proj1 (Hs sc))|exact Hc]. }
  { intros a cam k Ha Hm. apply I8. eauto. }
  { rewrite skipn_length, I3. unfold NMAX in *; lia. }
  assert (HTB : exists taken con0' v tim', take_best_candidates srt (fst (sc, n)) (skipn (length L) con) nc tim = Ok (taken, con0', v, tim')).
  { unfold take_best_candidates. cbn [fst]. rewrite Hr. cbn [bind]. destruct r as [[? ?] ?]. eauto. }
  destruct HTB as (taken & con0' & v & tim' & HTB). rewrite HTB. cbn [bind]. cbn [fst] in HTB.
  destruct (take_best_spec srt sc _ nc tim _ _ _ _ Hs I6 HTB)
    as (mask & P1 & P2 & P3 & P4 & P5 & P6 & P7 & P8 & P9 & P10 & P11 & P12 & P13 & P14 & P15).
  clear HTB Hr. set (M := select mask con0') in *.
  assert (ET : taken = Z.of_nat (length M)) by lia. subst taken.
  rewrite (pyset_in_range mc slot) by lia. cbn [bind].
  assert (E3 : pyget (upd mc (Z.to_nat slot) (Z.of_nat (length M))) 3 = Ok (Z.of_nat (length L))).
  { apply pyget_nonneg; [lia|]. rewrite nth_error_upd_neq by lia. exact I12. }
  rewrite E3. cbn [bind].
  rewrite pyset_in_range by (rewrite upd_length; lia). cbn [bind].
  replace (Z.of_nat (length L) + Z.of_nat (length M)) with (Z.of_nat (length (L ++ M))) by (rewrite app_length; lia).
  rewrite Nat2Z.id in P5, P9.
  assert (Lv : length v = (Z.to_nat (NMAX * nc) - length L)%nat) by (rewrite P8, skipn_length, I3; reflexivity).
  rewrite skipn_length, I3 in P9.
  assert (HvM : v = M ++ skipn (length M) v) by (rewrite <- P5 at 1; symmetry; apply firstn_skipn).
  exists con0', (firstn (length L) con ++ v), tim', M. split; [reflexivity|].
  assert (HMsc : forall c, In c M -> In c sc).
  { intros c Hc. eapply Permutation_in; [apply P1|]. eapply select_In; eauto. }
  split.
  { constructor; cbn [fst snd].
    - rewrite (Permutation_length P1). auto.
    - intros t Ht. apply Hsc. eapply Permutation_in; eauto.
    - rewrite app_length, firstn_length, Lv, I3. lia.
    - rewrite I4. rewrite HvM, app_assoc. apply firstn_app_exact.
    - rewrite app_length. lia.
    - auto.
    - eapply same_dims_table; eauto.
    - intros cam k. rewrite P12, I8. split.
      + intros [(a & ? & ?)|(a & ? & ?)]; exists a; split; auto; apply in_or_app; auto.
      + intros (a & Ha & ?). apply in_app_or in Ha as [Ha|Ha]; [left|right]; eauto.
    - intros c Hc. apply in_app_or in Hc as [Hc|Hc]; auto.
    - assert (HX : forall a b, In a L -> In b M -> ~ clash nc a b).
      { intros a b Ha Hb (cam & k & C1 & C2). eapply (P13 b cam k); eauto. apply I8. eauto. }
      intros i j a b Hij Ha Hb.
      destruct (Nat.lt_ge_cases i (length L)) as [Li|Li]; destruct (Nat.lt_ge_cases j (length L)) as [Lj|Lj].
      + rewrite nth_error_app1 in Ha, Hb by auto. apply (I10 i j a b); auto.
      + rewrite nth_error_app1 in Ha by auto. rewrite nth_error_app2 in Hb by auto.
        apply HX; eauto using nth_error_In.
      + rewrite nth_error_app1 in Hb by auto. rewrite nth_error_app2 in Ha by auto.
        intros (cam & k & C1 & C2). apply (HX b a); eauto using nth_error_In. exists cam, k; auto.
      + rewrite nth_error_app2 in Ha, Hb by auto. eapply (P14 (i - length L)%nat (j - length L)%nat); eauto. lia.
    - split; [rewrite !upd_length; auto|]. apply nth_error_upd_eq. rewrite upd_length. lia. }
  assert (HB : forall c, In c sc -> In c M \/ blocked nc tim c \/
        exists b, In b M /\ clash nc c b /\ np_le (tcorr c) (tcorr b) = true).
  { intros c Hc. apply (Permutation_in _ (Permutation_sym P1)) in Hc.
    destruct (In_nth_error _ _ Hc) as (i & Hi).
    destruct (nth_error mask i) as [[]|] eqn:Em.
    - left. eapply nth_select_true; eauto.
    - right. destruct (P15 _ _ Hi Em) as [(cam & k & ? & ?)|(j & b & Hj & M1 & M2 & M3)].
      + left. exists cam, k; auto.
      + right. exists b. split; [eapply nth_select_true; eauto|]. split; auto. eapply P2; eauto.
    - apply nth_error_None in Em. assert (i < length con0')%nat by (apply nth_error_Some; congruence). lia. }
  split; auto. split.
  { intros c Hc. split; auto. intros (cam & k & C1 & C2). eapply P13; eauto. }
  split.
  { intros c Hc. assert (Hc' : In c sc) by (eapply Permutation_in; eauto).
    destruct (HB c Hc') as [HM|[(cam & k & ? & ?)|(b & Hb & (cam & k & ? & ?) & _)]].
    - destruct (Hmem c Hc') as ((cam & k & Hm) & _). exists cam, k. split; auto. apply P12. right; eauto.
    - exists cam, k. split; auto. apply P12. auto.
    - exists cam, k. split; auto. apply P12. right; eauto. }
  split; auto.
  assert (HSD : forall (mask : list bool) l, descending l -> descending (select mask l)).
  { clear. intros mask l.
    assert (G : forall (mask : list bool) (l : list ntupel) i j a b, (i < j)%nat ->
      nth_error (select mask l) i = Some a -> nth_error (select mask l) j = Some b ->
      exists i' j', (i' < j')%nat /\ nth_error l i' = Some a /\ nth_error l j' = Some b).
    { clear. assert (G1 : forall (mask : list bool) (l : list ntupel) j b, nth_error (select mask l) j = Some b ->
         exists j', nth_error l j' = Some b).
      { intros mask l j b H. apply nth_error_In, select_In in H. now apply In_nth_error. }
      induction mask as [|m mask IH]; intros [|x l] i j a b Hij Ha Hb; simpl in *;
        try (destruct i; discriminate).
      destruct m.
      - destruct i as [|i], j as [|j]; simpl in *; try lia.
        + inversion Ha; subst. destruct (G1 _ _ _ _ Hb) as (j' & Hj'). exists O, (S j'). repeat split; auto; lia.
        + destruct (IH l i j a b) as (i' & j' & ? & ? & ?); auto; try lia. exists (S i'), (S j'). repeat split; auto; lia.
      - destruct (IH l i j a b) as (i' & j' & ? & ? & ?); auto; try lia. exists (S i'), (S j'). repeat split; auto; lia. }
    intros Hd i j a b Hij Ha Hb. destruct (G mask l i j a b Hij Ha Hb) as (i' & j' & ? & ? & ?).
    eapply Hd; eauto. }
  apply HSD; auto.
Qed.

(** ---- what the candidates look like ---- *)
Lemma edge_range nc counts cl a b i j x d na nb : wf_adj nc counts cl -> 0 <= a < b -> b < nc ->
  nth_error counts (Z.to_nat a) = Some na -> nth_error counts (Z.to_nat b) = Some nb ->
  0 <= i < na -> edge cl a b i j x d -> 0 <= j < nb.
Proof.
  intros W Hab Hb Na Nb Hi E. pose proof (wf_good _ _ _ _ _ _ _ _ W Hab Hb Na Nb Hi) as G.
  destruct (edge_inv _ _ _ _ _ _ _ _ G E) as (k & Hk & -> & _ & _).
  apply (wf_entry_p2 _ _ _ _ (g_wf _ _ _ _ _ G) Hk).
Qed.


Lemma quad_in_counts cl counts n0 accept t :
  wf_adj 4 counts cl -> nth_error counts 0 = Some n0 -> is_quad cl n0 accept t -> in_counts 4 counts t.
Proof.
  intros W N0 (p1 & p2 & p3 & p4 & x12 & d12 & x13 & d13 & x14 & d14 & x23 & d23 & x24 & d24 & x34 & d34 &
            Hi & E01 & E02 & E03 & _ & _ & _ & Ht & _).
  destruct (counts4 counts (proj1 W)) as (m0 & n1 & n2 & n3 & ->). simpl in N0. inversion N0; subst m0.
  pose proof (edge_range _ _ _ 0 1 _ _ _ _ _ _ W ltac:(lia) ltac:(lia) eq_refl eq_refl Hi E01) as R2.
  pose proof (edge_range _ _ _ 0 2 _ _ _ _ _ _ W ltac:(lia) ltac:(lia) eq_refl eq_refl Hi E02) as R3.
  pose proof (edge_range _ _ _ 0 3 _ _ _ _ _ _ W ltac:(lia) ltac:(lia) eq_refl eq_refl Hi E03) as R4.
  split; [rewrite Ht; reflexivity|]. split.
  - exists 0, p1. unfold member. rewrite Ht. repeat split; simpl; auto; lia.
  - intros cam k (Hc & Hk & Hn). rewrite Ht in Hn.
    assert (C : cam = 0 \/ cam = 1 \/ cam = 2 \/ cam = 3) by lia.
    destruct C as [->|[->|[->| ->]]]; simpl in Hn; inversion Hn; subst; simpl; eexists; split; eauto; lia.
Qed.

Lemma slots_nth l cam : 0 <= cam < 4 ->
  nth_error (slots l) (Z.to_nat cam) =
  Some (match find (fun q => fst q =? cam) l with Some q => snd q | None => -2 end).
Proof.
  intros H. assert (C : cam = 0 \/ cam = 1 \/ cam = 2 \/ cam = 3) by lia.
  destruct C as [->|[->|[->| ->]]]; reflexivity.
Qed.

Lemma slots_member nc l t cam k : nc <= 4 -> tp t = slots l -> member nc t cam k -> In (cam, k) l.
Proof.
  intros Hnc Ht (Hc & Hk & Hn). rewrite Ht, slots_nth in Hn by lia.
  destruct (find _ l) as [[c q]|] eqn:E; inversion Hn; subst; simpl in *; [|lia].
  apply find_some in E as (Hin & E). simpl in E. apply Z.eqb_eq in E. now subst.
Qed.

Lemma triplet_in_counts cl counts tus accept t :
  wf_adj 4 counts cl -> is_triplet_padded cl 4 counts tus accept t -> in_counts 4 counts t.
Proof.
  intros W (i1 & i2 & i3 & n1 & p1 & p2 & p3 & x12 & d12 & x13 & d13 & x23 & d23 &
      I1 & I2 & I3 & I4 & N1 & Hp1 & _ & _ & _ & E12 & E13 & _ & Ht & _).
  destruct (counts_at 4 counts cl i2 W ltac:(lia)) as (N2 & _).
  destruct (counts_at 4 counts cl i3 W ltac:(lia)) as (N3 & _).
  pose proof (edge_range _ _ _ i1 i2 _ _ _ _ _ _ W ltac:(lia) ltac:(lia) N1 N2 Hp1 E12) as R2.
  pose proof (edge_range _ _ _ i1 i3 _ _ _ _ _ _ W ltac:(lia) ltac:(lia) N1 N3 Hp1 E13) as R3.
  split; [rewrite Ht; reflexivity|]. split.
  - exists i1, p1. split; [lia|]. split; [lia|]. rewrite Ht, slots_nth by lia. simpl. now rewrite Z.eqb_refl.
  - intros cam k Hm. apply (slots_member 4 _ t cam k ltac:(lia) Ht) in Hm.
    destruct Hm as [E|[E|[E|[]]]]; inversion E; subst; eexists; split; eauto; lia.
Qed.

Lemma pair_in_counts nc cl counts tus accept t : nc <= 4 ->
  wf_adj nc counts cl -> is_pair cl nc counts tus accept t -> in_counts nc counts t.
Proof.
  intros Hnc W (i1 & i2 & n1 & p1 & p2 & x & d & I1 & I2 & I3 & N1 & Hp1 & _ & _ & E12 & _ & Ht & _).
  destruct (counts_at nc counts cl i2 W ltac:(lia)) as (N2 & _).
  pose proof (edge_range _ _ _ i1 i2 _ _ _ _ _ _ W ltac:(lia) ltac:(lia) N1 N2 Hp1 E12) as R2.
  split; [rewrite Ht; reflexivity|]. split.
  - exists i1, p1. split; [lia|]. split; [lia|]. rewrite Ht, slots_nth by lia. simpl. now rewrite Z.eqb_refl.
  - intros cam k Hm. apply (slots_member nc _ t cam k ltac:(lia) Ht) in Hm.
    destruct Hm as [E|[E|[]]]; inversion E; subst; eexists; split; eauto; lia.
Qed.

Lemma in_counts_fits nc counts t : nc <= 4 -> (forall n, In n counts -> n <= NMAX) ->
  in_counts nc counts t -> has_member nc t /\ fits nc t.
Proof.
  intros Hnc HN (L & Hm & Hk). split; auto. split; [lia|].
  intros cam k H. destruct (Hk cam k H) as (n & N & ?). apply nth_error_In in N. apply HN in N. lia.
Qed.

Lemma skipn_In {A} n (l : list A) x : In x (skipn n l) -> In x l.
Proof. intros H. rewrite <- (firstn_skipn n l). apply in_or_app; auto. Qed.
Lemma firstn_In {A} n (l : list A) x : In x (firstn n l) -> In x l.
Proof. intros H. rewrite <- (firstn_skipn n l). apply in_or_app; auto. Qed.

Lemma overwrite_len sc w : (length w <= length sc)%nat -> length (overwrite sc w) = length sc.
Proof. intros H. unfold overwrite. rewrite app_length, skipn_length. lia. Qed.
Lemma overwrite_In sc w c : In c (overwrite sc w) -> In c w \/ In c sc.
Proof. unfold overwrite. intros H. apply in_app_or in H as [?|H]; auto. right. eapply skipn_In; eauto. Qed.

Lemma overwrite_nc_len nc w : forall sc, length (overwrite_nc nc sc w) = length sc.
Proof. induction w as [|t w IH]; intros [|o sc]; simpl; auto. Qed.
Lemma overwrite_nc4 w : forall sc, scratch_ok sc -> (forall t, In t w -> length (tp t) = 4%nat) ->
  (length w <= length sc)%nat -> overwrite_nc 4 sc w = overwrite sc w.
Proof.
  unfold overwrite. induction w as [|t w IH]; intros [|o sc] Hsc Hw L; cbn [overwrite_nc length app] in *; auto; try lia.
  change (skipn (S (length w)) (o :: sc)) with (skipn (length w) sc).
  rewrite IH; auto; try lia.
  - f_equal. destruct t as [q x]; cbn [tp tcorr]. f_equal.
    assert (Lq : length q = 4%nat) by (apply (Hw {| tp := q; tcorr := x |}); simpl; auto).
    assert (Lo : length (tp o) = 4%nat) by (apply Hsc; simpl; auto).
    rewrite firstn_all2, skipn_all2 by lia. apply app_nil_r.
  - intros ? ?; apply Hsc; simpl; auto.
  - intros; apply Hw; simpl; auto.
Qed.
