(** The wait list can overflow: a uniform image grows in diagonal layers. *)
From Verif Require Import F64 Lib Model_corr Model_seg Spec_seg Proof_seg Base.
Local Open Scope Z_scope.

Section Flat.
Variable cap : nat.
Let K := Z.of_nat cap.
Let img := mk_image (K + 3) (K + 3) (fun _ _ => 1).
Variables nnmin nnmax nxmin nxmax nymin nymax smin : Z.
Let L := mk_limits 0 0 nnmin nnmax nxmin nxmax nymin nymax smin 1 (K + 2) 1 (K + 2).

(** Q waits, the pixels of z are taken *)
Definition St (z : Z -> Z -> bool) (Q : list (Z * Z)) (st : grow) : Prop :=
  (exists rest, g_wait st = Q ++ rest) /\ length (g_wait st) = cap /\ g_nwait st = Z.of_nat (length Q) /\
  im_h (g_img0 st) = K + 3 /\ im_w (g_img0 st) = K + 3 /\
  forall x y, 0 <= x < K + 3 -> 0 <= y < K + 3 -> im_px (g_img0 st) y x = if z x y then 0 else 1.

Lemma St_ext z z' Q st : (forall x y, z x y = z' x y) -> St z Q st -> St z' Q st.
Proof. intros H (A & B & C & D & E & F). repeat (split; [assumption|]). intros x y X Y. rewrite <- H. auto. Qed.

Lemma visit_skip z Q st x y : St z Q st -> 0 <= x < K + 3 -> 0 <= y < K + 3 -> (z x y = true \/ x = 0 \/ y = 0) -> visit img L 1 st (x, y) = Ok st.
Proof.
  intros (_ & _ & _ & H & W & PX) X Y C. unfold visit. cbn [l_xmax l_ymax L].
  destruct ((x >=? K + 2) || (y >=? K + 2) || (x <? 0) || (y <? 0)); [reflexivity|].
  rewrite iget_in by (rewrite ?H, ?W; lia). rewrite PX by lia. cbn [bind].
  destruct C as [C|C].
  - rewrite C. reflexivity.
  - assert (E : forall r1 r2 r3 r4 : result bool, andM [Ok ((if z x y then 0 else 1) >? l_thres L); Ok (x >? l_xmin L - 1); Ok (x <? l_xmax L + 1); Ok (y >? l_ymin L - 1);
       Ok (y <? l_ymax L + 1); Ok ((if z x y then 0 else 1) <=? 1 + l_disco L); r1; r2; r3; r4] = Ok false).
    { intros. cbn [andM bind L l_thres l_xmin l_xmax l_ymin l_ymax l_disco].
      destruct ((if z x y then 0 else 1) >? 0); [|reflexivity]. destruct (Z.gtb_spec x (1 - 1)); [|reflexivity].
      destruct (x <? K + 2 + 1); [|reflexivity]. destruct (Z.gtb_spec y (1 - 1)); [lia|reflexivity]. }
    rewrite E. reflexivity.
Qed.

Lemma visit_new z Q st x y : St z Q st -> 1 <= x < K + 2 -> 1 <= y < K + 2 -> z x y = false ->
  visit img L 1 st (x, y) = Exn IndexError /\ length Q = cap \/
  exists st', visit img L 1 st (x, y) = Ok st' /\ St (fun a b => z a b || ((a =? x) && (b =? y))) (Q ++ [(x, y)]) st'.
Proof.
  intros ((rest & WT) & LW & NW & H & W & PX) X Y Z0. unfold visit. cbn [l_xmax l_ymax L].
  replace ((x >=? K + 2) || (y >=? K + 2) || (x <? 0) || (y <? 0)) with false.
  2:{ symmetry. rewrite !orb_false_iff. repeat split; lia. }
  rewrite iget_in by (rewrite ?H, ?W; lia). rewrite PX by lia. rewrite Z0. cbn [bind].
  assert (G : forall a b, 0 <= a < K + 3 -> 0 <= b < K + 3 -> ge_px (1 + 0) img a b = Ok true).
  { intros a b A B. rewrite ge_px_in by (cbn [img im_h im_w]; lia). reflexivity. }
  cbn [andM bind L l_thres l_xmin l_xmax l_ymin l_ymax l_disco].
  rewrite !G by lia. cbn [bind].
  replace (1 >? 0) with true by reflexivity.
  replace (x >? 1 - 1) with true by lia. replace (x <? K + 2 + 1) with true by lia. replace (y >? 1 - 1) with true by lia. replace (y <? K + 2 + 1) with true by lia.
  replace (1 <=? 1 + 0) with true by reflexivity.
  rewrite iset_in by (rewrite ?H, ?W; lia). cbn [bind].
  assert (LQ : (length Q <= cap)%nat). { rewrite <- LW, WT, app_length. lia. }
  destruct (Nat.eq_dec (length Q) cap) as [E|E].
  - left. split; auto. rewrite NW. unfold pyset. rewrite LW.
    replace (pyidx cap (Z.of_nat (length Q))) with (@None nat); [reflexivity|]. unfold pyidx.
    destruct (Z.leb_spec 0 (Z.of_nat (length Q))), (Z.ltb_spec (Z.of_nat (length Q)) (Z.of_nat cap)); try lia. cbn [andb].
    destruct (Z.leb_spec (- Z.of_nat cap) (Z.of_nat (length Q))), (Z.ltb_spec (Z.of_nat (length Q)) 0); try lia; reflexivity.
  - right.
    destruct rest as [|r rest]. { exfalso. rewrite app_nil_r in WT. rewrite WT in LW. lia. }
    assert (PS : pyset (g_wait st) (g_nwait st) (x, y) = Ok (Q ++ (x, y) :: rest)).
    { rewrite NW, WT. rewrite pyset_in_range by (rewrite app_length; cbn [length]; lia). rewrite Nat2Z.id. f_equal.
      clear. induction Q as [|q Q IH]; cbn [app length upd]; [reflexivity|]. now rewrite IH. }
    rewrite PS. cbn [bind]. eexists. split; [reflexivity|].
    unfold St. cbn [g_wait g_nwait g_img0 im_h im_w im_px]. split. { exists rest. now rewrite <- app_assoc. }
    split. { rewrite <- LW, WT, !app_length. reflexivity. }
    split. { rewrite NW, app_length. cbn [length]. lia. }
    split; [exact H|]. split; [exact W|]. intros a b A B. rewrite (andb_comm (b =? y)).
    destruct ((a =? x) && (b =? y)) eqn:EE; [now rewrite orb_true_r|rewrite orb_false_r; auto].
Qed.

Let N := Z.of_nat.
Definition layer (k i : nat) : Z * Z := (1 + N k - N i, 1 + N i).
(** entries i.. of layer k wait, and the entries of layer k + 1 next to the done ones *)
Definition queue (k i : nat) : list (Z * Z) := map (layer k) (seq i (S k - i)) ++ (if (i =? 0)%nat then [] else map (layer (S k)) (seq 0 (S i))).
Definition taken (k i : nat) (x y : Z) : bool :=
  (1 <=? x) && (1 <=? y) && ((x + y - 2 <=? N k) || ((1 <=? N i) && (x + y - 2 =? N k + 1) && (y - 1 <=? N i))).
Lemma queue_len k i : (i <= k)%nat -> length (queue k i) = if (i =? 0)%nat then S k else S (S k).
Proof. intros H. unfold queue. rewrite app_length, map_length, seq_length. destruct (Nat.eqb_spec i 0); [cbn [length]; lia|]. rewrite map_length, seq_length. lia. Qed.
Lemma queue_turn k : queue k (S k) = queue (S k) 0.
Proof. unfold queue. replace (S k - S k)%nat with 0%nat by lia. cbn [seq map app Nat.eqb]. rewrite app_nil_r. reflexivity. Qed.
Lemma queue_next k i : (i <= k)%nat -> exists Q, queue k i = layer k i :: Q /\
  queue k (S i) = Q ++ (if (i =? 0)%nat then [layer (S k) 0] else []) ++ [layer (S k) (S i)].
Proof.
  intros H. exists (map (layer k) (seq (S i) (S k - S i)) ++ (if (i =? 0)%nat then [] else map (layer (S k)) (seq 0 (S i)))). split.
  - unfold queue. replace (S k - i)%nat with (S (S k - S i)) by lia. reflexivity.
  - unfold queue. cbn [Nat.eqb]. rewrite <- app_assoc. f_equal. destruct (Nat.eqb_spec i 0) as [->|NE].
    + reflexivity.
    + cbn [app]. rewrite (seq_S (S i) 0), map_app. reflexivity.
Qed.

Lemma round_flat k i st : (i <= k)%nat -> (S (S k) <= cap)%nat -> (i <> 0%nat -> (S (S (S k)) <= cap)%nat) -> St (taken k i) (queue k i) st ->
  (i = 0%nat /\ S (S k) = cap /\ round img L st = Exn IndexError) \/
  (S (S (S k)) <= cap)%nat /\ exists st', round img L st = Ok st' /\ St (taken k (S i)) (queue k (S i)) st'.
Proof.
  intros IK C1 C2 S0. destruct (queue_next k i IK) as (Q & QE & QN). pose proof (queue_len k i IK) as QL.
  rewrite QE in S0, QL. cbn [length] in QL.
  remember (round img L st) as R eqn:RE. unfold round in RE. destruct S0 as ((rest & WT) & S1).
  assert (P0 : pyget (g_wait st) 0 = Ok (layer k i)). { rewrite WT. apply pyget_nonneg; [lia|reflexivity]. }
  rewrite P0 in RE. cbn [bind] in RE. unfold layer at 1 in RE. cbn iota in RE.
  assert (KK : N k + 2 <= K) by (unfold N, K; lia). assert (II : 0 <= N i <= N k) by (unfold N; lia).
  rewrite iget_in in RE by (cbn [img im_h im_w]; lia). cbn [bind img im_px] in RE.
  assert (S2 : St (taken k i) (layer k i :: Q) st) by (split; [exists rest; exact WT|exact S1]).
  cbn [foldM] in RE.
  (* left *)
  rewrite (visit_skip _ _ _ _ _ S2) in RE by first [lia|unfold taken; destruct (Z.eq_dec (N k - N i) 0); [right; left; lia|left; rewrite !andb_true_iff, !orb_true_iff; repeat split; try lia; left; lia]].
  cbn [bind] in RE.
  assert (NI : N (S i) = N i + 1) by (unfold N; lia).
  destruct (Nat.eq_dec i 0) as [I0|I0].
  - (* first entry of the layer: right is new *)
    subst i. change (N 0) with 0 in *. change (0 =? 0)%nat with true in *. cbn iota in QL, QN.
    destruct (visit_new _ _ _ (1 + N k - 0 + 1) (1 + 0) S2) as [(E & LQ)|(st1 & V1 & S3)]; try lia.
    { unfold taken. change (N 0) with 0. rewrite !andb_false_iff, !orb_false_iff, !andb_false_iff. right. split; [lia|]. left. left. lia. }
    { exfalso. cbn [length] in LQ. lia. }
    rewrite V1 in RE. cbn [bind] in RE.
    rewrite (visit_skip _ _ _ _ _ S3) in RE by (try lia; right; right; lia). cbn [bind] in RE.
    destruct (visit_new _ _ _ (1 + N k - 0) (1 + 0 + 1) S3) as [(E & LQ)|(st2 & V2 & S4)]; try lia.
    { unfold taken. change (N 0) with 0. rewrite orb_false_iff. split.
      - rewrite !andb_false_iff, !orb_false_iff, !andb_false_iff. right. split; [lia|]. left. left. lia.
      - apply andb_false_iff. right. lia. }
    { left. rewrite E in RE. split; auto. split; [|exact RE]. rewrite app_length in LQ. cbn [length] in LQ. lia. }
    rewrite V2 in RE. cbn [bind] in RE. right.
    destruct S4 as ((rest2 & WT2) & LW2 & NW2 & IM). split.
    { assert (LX := f_equal (@length _) WT2). rewrite LW2 in LX. repeat (rewrite app_length in LX; cbn [length app] in LX). lia. }
    rewrite WT2, NW2 in RE. replace (((layer k 0 :: Q) ++ [(1 + N k - 0 + 1, 1 + 0)]) ++ [(1 + N k - 0, 1 + 0 + 1)]) with (layer k 0 :: queue k 1) in RE.
    2:{ rewrite QN. assert (E1 : layer (S k) 0 = (1 + N k - 0 + 1, 1 + 0)) by (unfold layer, N; f_equal; lia).
        assert (E2 : layer (S k) 1 = (1 + N k - 0, 1 + 0 + 1)) by (unfold layer, N; f_equal; lia). rewrite E1, E2. cbn [app]. rewrite <- app_assoc. reflexivity. }
    cbn [length app] in RE. replace (Z.of_nat (S (length (queue k 1))) - 1) with (Z.of_nat (length (queue k 1))) in RE by lia.
    rewrite shift_ok in RE. cbn [bind] in RE. eexists. split; [exact RE|]. unfold St. cbn [g_wait g_nwait g_img0].
    split; [eexists; reflexivity|]. split.
    { assert (LX := f_equal (@length _) WT2). rewrite LW2 in LX. repeat (rewrite app_length in LX; cbn [length app] in LX). rewrite QN. repeat (rewrite app_length; cbn [length app]). lia. }
    split; [reflexivity|]. destruct IM as (IH & IW & PX). split; [exact IH|]. split; [exact IW|].
    intros x y X Y. rewrite PX by assumption. replace (taken k 1 x y) with ((taken k 0 x y || (x =? 1 + N k - 0 + 1) && (y =? 1 + 0)) || (x =? 1 + N k - 0) && (y =? 1 + 0 + 1)); [reflexivity|].
    unfold taken. change (N 0) with 0. change (N 1) with 1. change (1 <=? 0) with false. change (1 <=? 1) with true. cbn [andb]. rewrite orb_false_r.
    clear - KK II. generalize dependent (N k). intros n II KK. lia.
  - (* right is taken, down is new *)
    destruct (Nat.eqb_spec i 0) as [?|_]; [contradiction|]. assert (I1 : 1 <= N i) by (unfold N; lia).
    rewrite (visit_skip _ _ _ _ _ S2) in RE by first [lia|left; unfold taken; lia].
    cbn [bind] in RE.
    rewrite (visit_skip _ _ _ _ _ S2) in RE by first [lia|left; unfold taken; lia].
    cbn [bind] in RE.
    destruct (visit_new _ _ _ (1 + N k - N i) (1 + N i + 1) S2) as [(E & LQ)|(st2 & V2 & S4)]; try lia.
    { unfold taken. rewrite !andb_false_iff, !orb_false_iff, !andb_false_iff. right. split; [lia|]. right. lia. }
    { exfalso. specialize (C2 I0). cbn [length] in LQ. lia. }
    rewrite V2 in RE. cbn [bind] in RE. right. split; [auto|].
    destruct S4 as ((rest2 & WT2) & LW2 & NW2 & IM).
    rewrite WT2, NW2 in RE. replace ((layer k i :: Q) ++ [(1 + N k - N i, 1 + N i + 1)]) with (layer k i :: queue k (S i)) in RE.
    2:{ rewrite QN. assert (E2 : layer (S k) (S i) = (1 + N k - N i, 1 + N i + 1)) by (unfold layer, N; f_equal; lia). rewrite E2. reflexivity. }
    cbn [length app] in RE. replace (Z.of_nat (S (length (queue k (S i)))) - 1) with (Z.of_nat (length (queue k (S i)))) in RE by lia.
    rewrite shift_ok in RE. cbn [bind] in RE. eexists. split; [exact RE|]. unfold St. cbn [g_wait g_nwait g_img0].
    split; [eexists; reflexivity|]. split.
    { assert (LX := f_equal (@length _) WT2). rewrite LW2 in LX. repeat (rewrite app_length in LX; cbn [length app] in LX). rewrite QN. repeat (rewrite app_length; cbn [length app]). lia. }
    split; [reflexivity|]. destruct IM as (IH & IW & PX). split; [exact IH|]. split; [exact IW|].
    intros x y X Y. rewrite PX by assumption. replace (taken k (S i) x y) with (taken k i x y || (x =? 1 + N k - N i) && (y =? 1 + N i + 1)); [reflexivity|].
    unfold taken. rewrite NI. clear - KK II I1. lia.
Qed.

Lemma taken_turn k x y : taken k (S k) x y = taken (S k) 0 x y.
Proof.
  unfold taken, N. rewrite !Nat2Z.inj_succ. change (Z.of_nat 0) with 0. pose proof (Nat2Z.is_nonneg k) as H. generalize dependent (Z.of_nat k). intros n H. unfold Z.succ. lia.
Qed.
Lemma rounds_flat : forall fuel k i st, (i <= k)%nat -> (S (S k) <= cap)%nat -> (i <> 0%nat -> (S (S (S k)) <= cap)%nat) -> St (taken k i) (queue k i) st ->
  ((cap - 2 - k) * cap + 1 <= fuel + i)%nat -> rounds img L fuel st = Exn IndexError.
Proof.
  induction fuel as [|fuel IH]; intros k i st IK C1 C2 S0 F.
  - exfalso. destruct (Nat.eq_dec i 0) as [->|I0]; [lia|]. specialize (C2 I0). assert (1 <= cap - 2 - k)%nat by lia. nia.
  - assert (NW : g_nwait st >? 0 = true).
    { destruct S0 as (_ & _ & -> & _). pose proof (queue_len k i IK). destruct (i =? 0)%nat; lia. }
    cbn [rounds]. rewrite NW. destruct (round_flat k i st IK C1 C2 S0) as [(-> & _ & ->)|(C3 & st' & -> & S1)]; [reflexivity|]. cbn [bind].
    destruct (Nat.eq_dec i k) as [->|NE].
    + apply (IH (S k) 0%nat); try lia.
      * rewrite queue_turn in S1. eapply St_ext; [|exact S1]. intros; apply taken_turn.
      * assert (cap - 2 - k = S (cap - 2 - S k))%nat as E by lia. rewrite E in F. nia.
    + apply (IH k (S i)); try lia; auto.
Qed.

Lemma flat_overflow : (2 <= cap)%nat -> fast_targ_rec img L cap = Exn IndexError.
Proof.
  intros C. assert (KC : 2 <= K) by (unfold K; lia). unfold fast_targ_rec. cbn [L l_ymin l_ymax]. rewrite zrange_cons by lia. cbn [foldM].
  assert (R : scan_row img L cap (img, []) 1 = Exn IndexError); [|rewrite R; reflexivity].
  unfold scan_row. cbn [L l_xmin l_xmax]. rewrite zrange_cons by lia. cbn [foldM].
  assert (R : scan_pixel img L cap 1 (img, []) 1 = Exn IndexError); [|rewrite R; reflexivity].
  unfold scan_pixel. rewrite iget_in by (cbn [img im_h im_w]; lia). cbn [bind img im_px]. cbn [L l_thres]. change (1 >? 0) with true. cbn iota.
  assert (G : forall a b, 0 <= a < K + 3 -> 0 <= b < K + 3 -> ge_px 1 img a b = Ok true).
  { intros a b A B. rewrite ge_px_in by (cbn [img im_h im_w]; lia). reflexivity. }
  fold img. unfold local_max. rewrite !G by lia. cbn [andM bind]. rewrite iset_in by (cbn [img im_h im_w]; lia). cbn [bind img im_h im_w im_px].
  fold img. rewrite pyset_in_range by (rewrite repeat_length; unfold K in *; lia). cbn [bind].
  match goal with |- (do g <- rounds img _ ?f ?s; _) = _ => replace (rounds img _ f s) with (@Exn grow IndexError); [reflexivity|] end.
  symmetry. fold L. apply (rounds_flat _ 0 0); [lia|lia|congruence| |].
  - unfold St. cbn [g_wait g_nwait g_img0 im_h im_w im_px]. split.
    { destruct cap as [|c]; [lia|]. cbn [repeat]. eexists. reflexivity. }
    split. { rewrite upd_length, repeat_length. reflexivity. }
    split; [reflexivity|]. split; [reflexivity|]. split; [reflexivity|].
    intros x y X Y. unfold taken, N. change (Z.of_nat 0) with 0. destruct ((y =? 1) && (x =? 1)) eqn:E.
    + replace ((1 <=? x) && (1 <=? y) && ((x + y - 2 <=? 0) || (1 <=? 0) && (x + y - 2 =? 0 + 1) && (y - 1 <=? 0))) with true by lia. reflexivity.
    + replace ((1 <=? x) && (1 <=? y) && ((x + y - 2 <=? 0) || (1 <=? 0) && (x + y - 2 =? 0 + 1) && (y - 1 <=? 0))) with false by lia. reflexivity.
  - cbn [img im_h im_w]. unfold K. replace (Z.to_nat ((Z.of_nat cap + 3) * (Z.of_nat cap + 3))) with ((cap + 3) * (cap + 3))%nat by lia. nia.
Qed.
End Flat.

(** targ_rec on a uniform image *)
Definition uniform (n : Z) : image := mk_image n n (fun _ _ => 1).
Lemma uniform_overflow tp : pyget (tpar_gvthresh tp) 0 = Ok 0 -> tpar_discont tp = 0 ->
  let n := MAX_TARGETS + 3 in targ_rec (uniform n) tp 0 n 0 n n n 0 = Exn IndexError.
Proof.
  intros T D n. unfold targ_rec. rewrite T. cbn [bind]. rewrite D.
  assert (E : n = Z.of_nat (Z.to_nat MAX_TARGETS) + 3) by (unfold n; rewrite Z2Nat.id by (unfold MAX_TARGETS; lia); reflexivity).
  change (0 <=? 0) with true. cbn iota. rewrite (proj2 (Z.geb_le n n)) by lia.
  replace (n - 1) with (Z.of_nat (Z.to_nat MAX_TARGETS) + 2) by lia. unfold uniform. rewrite E.
  apply flat_overflow. apply Nat2Z.inj_le. rewrite Z2Nat.id by (unfold MAX_TARGETS; lia). unfold MAX_TARGETS. lia.
Qed.
