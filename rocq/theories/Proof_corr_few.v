(** Two and three cameras. *)
From Coq Require Import Permutation Sorted.
From Verif Require Import Base F64 Model_corr Spec_corr Proof_corr_take Proof_corr_loops Proof_corr_three Proof_corr_pairs Proof_corr_all Proof_corr_main Proof_corr_pm Proof_corr_prop Proof_corr_ex.
Local Open Scope Z_scope.

Lemma emitl_all nc size mks ts : nc <= 4 ->
  Forall2 (fun mk t => forall old, length (tp old) = 4%nat -> mk old = Ok (fill nc t old)) mks ts ->
  forall pre suf, (forall t, In t suf -> length (tp t) = 4%nat) ->
  (length ts <= length suf)%nat -> Z.of_nat (length pre + length ts) < size ->
  runC (emitl size mks (pre ++ suf, Z.of_nat (length pre))) = Ok (pre ++ overwrite_nc (Z.to_nat nc) suf ts, Z.of_nat (length pre + length ts)).
Proof.
  intros Hnc H; induction H as [|mk t mks ts Hmk HF IH]; intros pre suf Hsuf Hl Hsz.
  - cbn [emitl runC overwrite_nc length]. now rewrite Nat.add_0_r.
  - destruct suf as [|old suf]; [simpl in Hl; lia|]. cbn [length] in Hl, Hsz. cbn [emitl]. unfold emit at 1.
    assert (E : pyget (pre ++ old :: suf) (Z.of_nat (length pre)) = Ok old).
    { apply pyget_nonneg; [lia|]. rewrite Nat2Z.id, nth_error_app2 by lia. now rewrite Nat.sub_diag. }
    rewrite E. cbn [tryC]. rewrite Hmk by (apply Hsuf; simpl; auto). cbn [tryC].
    rewrite pyset_in_range by (rewrite app_length; simpl; lia). rewrite Nat2Z.id. cbn [tryC]. rewrite upd_app_len.
    destruct (Z.eqb_spec (Z.of_nat (length pre) + 1) size) as [E1|E1]; [lia|]. cbn [bindC].
    replace (Z.of_nat (length pre) + 1) with (Z.of_nat (length (pre ++ [fill nc t old]))) by (rewrite app_length; simpl; lia).
    replace (pre ++ fill nc t old :: suf) with ((pre ++ [fill nc t old]) ++ suf) by (now rewrite <- app_assoc).
    rewrite IH; [|intros; apply Hsuf; simpl; auto|lia|rewrite app_length; simpl; lia].
    rewrite app_length. cbn [length overwrite_nc]. rewrite <- app_assoc. cbn [app]. unfold fill. do 2 f_equal. lia.
Qed.

Lemma flat_map_le {A B} (f : A -> list B) (l : list A) n : (forall a, In a l -> (length (f a) <= n)%nat) -> (length (flat_map f l) <= length l * n)%nat.
Proof. induction l as [|a l IH]; intros H; cbn [flat_map length]; [lia|]. rewrite app_length. specialize (H a) as H0. specialize (IH (fun a I => H a (or_intror I))). pose proof (H0 (or_introl eq_refl)). lia. Qed.

Lemma pairs_len nc cl counts accept tus : 2 <= nc <= 3 -> wf_adj nc counts cl -> (forall n, In n counts -> n <= NMAX) ->
  Z.of_nat (length (pairs t2 cl nc counts accept tus)) <= NMAX * (2 * nc - 3).
Proof.
  intros Hnc W HN. unfold pairs.
  set (row := fun i1 i2 => flat_map (fun i => let c := ce cl i1 i2 i in
    if NMAX <=? cp1 c then [] else if 0 <? gu tus i1 (cp1 c) then [] else if negb (cn c =? 1) then [] else
    let p2 := nz (cp2 c) 0 in if NMAX <=? p2 then [] else if 0 <? gu tus i2 p2 then [] else
    let corr := fdiv (nf (ccorr c) 0) (nf (cdist c) 0) in
    if fle corr accept then [] else [t2 i1 i2 (cp1 c) p2 corr]) (zrange 0 (nz counts i1))).
  assert (HR : forall i1 i2, 0 <= i1 < nc -> Z.of_nat (length (row i1 i2)) <= NMAX).
  { intros i1 i2 Hi. unfold row. destruct (counts_at nc counts cl i1 W Hi) as (N1 & _). assert (nz counts i1 <= NMAX) by (apply HN; eauto using nth_error_In).
    match goal with |- Z.of_nat (length (flat_map ?f ?l)) <= _ => assert (length (flat_map f l) <= length l * 1)%nat end.
    { apply flat_map_le. intros i _. cbv zeta. repeat (match goal with |- context [if ?b then _ else _] => destruct b end; cbn [length]; try lia). }
    rewrite zrange_length in H0. unfold NMAX in *. lia. }
  match goal with |- Z.of_nat (length (flat_map ?f _)) <= _ => change f with (fun i1 => flat_map (row i1) (zrange (i1 + 1) nc)) end.
  assert (C : nc = 2 \/ nc = 3) by lia. destruct C as [-> | ->].
  - change (zrange 0 (2 - 1)) with [0]. cbn [flat_map]. change (zrange (0 + 1) 2) with [1]. cbn [flat_map]. rewrite !app_nil_r. specialize (HR 0 1 ltac:(lia)). lia.
  - change (zrange 0 (3 - 1)) with [0; 1]. cbn [flat_map]. change (zrange (0 + 1) 3) with [1; 2]. change (zrange (1 + 1) 3) with [2]. cbn [flat_map]. rewrite !app_nil_r, !app_length.
    pose proof (HR 0 1 ltac:(lia)). pose proof (HR 0 2 ltac:(lia)). pose proof (HR 1 2 ltac:(lia)). lia.
Qed.

Lemma overwrite_nc_blank nc w : forall n c, In c (overwrite_nc nc (repeat blank n) w) -> c = blank \/ exists t, In t w /\ tp c = firstn nc (tp t) ++ skipn nc [0; 0; 0; 0] /\ tcorr c = tcorr t.
Proof.
  induction w as [|t w IH]; intros n c; [destruct n; cbn [overwrite_nc]; intros H; left; eapply repeat_spec; eauto|].
  destruct n as [|n]; cbn [repeat overwrite_nc]; [intros []|]. intros [<-|H]; [right; exists t; split; [now left|split; reflexivity]|].
  destruct (IH n c H) as [?|(t' & I & E)]; [auto|]. right. exists t'. split; [now right|exact E].
Qed.
Lemma overwrite_nc_has nc w t : forall n, (length w <= n)%nat -> In t w ->
  exists c, In c (overwrite_nc nc (repeat blank n) w) /\ tp c = firstn nc (tp t) ++ skipn nc [0; 0; 0; 0] /\ tcorr c = tcorr t.
Proof.
  induction w as [|u w IH]; intros n Hl; [intros []|]. destruct n as [|n]; cbn [length] in Hl; [lia|]. cbn [repeat overwrite_nc]. intros [->|H].
  - eexists. split; [left; reflexivity|]. split; reflexivity.
  - destruct (IH n ltac:(lia) H) as (c & I & E). exists c. split; [now right|exact E].
Qed.
Lemma overwrite_nc_rest nc w : forall n, (length w < n)%nat -> In blank (overwrite_nc nc (repeat blank n) w).
Proof. induction w as [|u w IH]; intros [|n] Hl; cbn [length] in Hl; try lia; cbn [repeat overwrite_nc]; [now left|]. right. apply IH. lia. Qed.
Lemma all_blank l : (forall c, In c l -> c = blank) -> l = repeat blank (length l).
Proof. induction l as [|a l IH]; intros H; cbn [length repeat]; [reflexivity|]. rewrite (H a) by now left. f_equal. apply IH. intros c I. apply H. now right. Qed.

Lemma stored_eq nc t c : 0 <= nc <= 4 -> tp c = firstn (Z.to_nat nc) (tp t) ++ skipn (Z.to_nat nc) [0; 0; 0; 0] -> tcorr c = tcorr t -> stored nc t c.
Proof. intros Hnc E Ec. split; [|exact Ec]. rewrite E. f_equal. assert (C : nc = 0 \/ nc = 1 \/ nc = 2 \/ nc = 3 \/ nc = 4) by lia. destruct C as [->|[->|[->|[->| ->]]]]; reflexivity. Qed.
Lemma stored_member nc t c cam k : 0 <= nc <= 4 -> length (tp t) = 4%nat -> stored nc t c -> (member nc c cam k <-> member nc t cam k).
Proof.
  intros Hnc Lt (E & _). unfold member. rewrite E.
  assert (X : 0 <= cam < nc -> nth_error (firstn (Z.to_nat nc) (tp t) ++ repeat 0 (4 - Z.to_nat nc)) (Z.to_nat cam) = nth_error (tp t) (Z.to_nat cam)).
  { intros H. rewrite nth_error_app1 by (rewrite firstn_length; lia). rewrite <- (firstn_skipn (Z.to_nat nc) (tp t)) at 2. rewrite nth_error_app1 by (rewrite firstn_length; lia). reflexivity. }
  split; intros (A & B & C); (split; [exact A|split; [exact B|]]); rewrite X in * by exact A; exact C.
Qed.
Lemma pair_len cl nc counts tus accept t : is_pair cl nc counts tus accept t -> length (tp t) = 4%nat.
Proof. intros (i1 & i2 & n1 & p1 & p2 & x & d & _ & _ & _ & _ & _ & _ & _ & _ & _ & E & _). rewrite E. reflexivity. Qed.

(** the pair phase for two or three cameras, starting with a blank scratch array *)
Lemma pair_phase srt nc cl counts corrmin con0 con tim mc L :
  2 <= nc <= 3 -> sorts srt -> wf_adj nc counts cl -> (forall n, In n counts -> 1 <= n <= NMAX) ->
  inv nc (con0, con, tim, mc) L -> (forall c, In c con0 -> c = blank) ->
  exists sc n con0' con' tim' P,
    consistent_pair_matching cl nc counts corrmin con0 (4 * NMAX) tim = Ok (sc, n) /\
    phase srt 2 nc (sc, n) (con0, con, tim, mc) = Ok (con0', con', tim', upd (upd mc 2 (Z.of_nat (length P))) 3 (Z.of_nat (length (L ++ P)))) /\
    inv nc (con0', con', tim', upd (upd mc 2 (Z.of_nat (length P))) 3 (Z.of_nat (length (L ++ P)))) (L ++ P) /\
    descending P /\ (forall c, In c P -> ~ blocked nc tim c) /\
    (forall c, In c P -> c = blank \/ exists t, is_pair cl nc counts tim corrmin t /\ stored nc t c) /\
    (forall t, is_pair cl nc counts tim corrmin t -> (exists c, In c P /\ stored nc t c) \/ exists b, In b P /\ clash nc t b /\ np_le (tcorr t) (tcorr b) = true) /\
    (nc = 2 -> In blank P \/ blocked nc tim blank \/ exists b, In b P /\ clash nc blank b /\ np_le fzero (tcorr b) = true).
Proof.
  intros Hnc Hs W HN I B0. assert (HN' : forall n, In n counts -> n <= NMAX) by (intros n Hn; specialize (HN n Hn); lia).
  pose proof (inv_table nc counts _ _ HN' I) as T. cbn [fst snd] in T.
  pose proof (i_con0 _ _ _ I) as L0. cbn [fst snd] in L0.
  set (ps := pairs t2 cl nc counts corrmin tim).
  assert (Hps : forall t, In t ps <-> is_pair cl nc counts tim corrmin t) by (intros t; now apply pairs_spec).
  pose proof (pairs_len nc cl counts corrmin tim Hnc W HN') as Lp. fold ps in Lp.
  assert (Lp0 : (length ps <= length con0)%nat) by (rewrite L0; unfold NMAX in *; lia).
  assert (E : consistent_pair_matching cl nc counts corrmin con0 (4 * NMAX) tim = Ok (overwrite_nc (Z.to_nat nc) con0 ps, Z.of_nat (length ps))).
  { rewrite pair_emit by auto. pose proof (emitl_all nc (4 * NMAX) _ ps ltac:(lia) (pairs_map nc cl counts corrmin tim ltac:(lia)) [] con0) as X.
    cbn [app length Z.of_nat Nat.add] in X. apply X; [intros t Ht; rewrite (B0 t Ht); reflexivity|exact Lp0|unfold NMAX in *; lia]. }
  assert (EB : con0 = repeat blank (length con0)) by now apply all_blank.
  set (sc := overwrite_nc (Z.to_nat nc) con0 ps) in *.
  assert (Hsc : forall c, In c sc -> c = blank \/ exists t, is_pair cl nc counts tim corrmin t /\ stored nc t c).
  { intros c Hc. unfold sc in Hc. rewrite EB in Hc. destruct (overwrite_nc_blank _ _ _ _ Hc) as [?|(t & It & E1 & E2)]; [auto|]. right. exists t. split; [now apply Hps|]. apply stored_eq; [lia|exact E1|exact E2]. }
  assert (Hic : forall c, In c sc -> in_counts nc counts c).
  { intros c Hc. destruct (Hsc c Hc) as [->|(t & Ht & St)]; [apply blank_in_counts; [lia|apply W|intros n Hn; specialize (HN n Hn); lia]|].
    pose proof (pair_len _ _ _ _ _ _ Ht) as Lt. destruct (pair_in_counts nc cl counts tim corrmin t ltac:(lia) W Ht) as (_ & (cam & k & Hm) & Hk).
    split; [rewrite (proj1 St), app_length, firstn_length, repeat_length; lia|]. split; [exists cam, k; apply (stored_member nc t c cam k ltac:(lia) Lt St); exact Hm|].
    intros cam' k' Hm'. apply Hk. apply (stored_member nc t c cam' k' ltac:(lia) Lt St); exact Hm'. }
  destruct (phase_ok srt 2 nc sc (Z.of_nat (length ps)) con0 con tim mc L Hs ltac:(lia) ltac:(lia) I ltac:(lia)) as (con0' & con' & tim' & P & P1 & P2 & P3 & P4 & P5 & P6 & P7).
  { unfold sc. rewrite overwrite_nc_len. exact L0. }
  { intros t Ht. apply Hic; auto. }
  { intros c Hc. apply (in_counts_fits nc counts); auto; lia. }
  change (Z.to_nat 2) with 2%nat in *. exists sc, (Z.of_nat (length ps)), con0', con', tim', P. split; [exact E|]. split; [exact P1|]. split; [exact P2|]. split; [exact P6|].
  split; [intros c Hc; apply P4; exact Hc|]. split; [intros c Hc; apply Hsc, P4, Hc|]. split.
  - intros t Ht. assert (It : In t ps) by now apply Hps. destruct (overwrite_nc_has (Z.to_nat nc) ps t (length con0) Lp0 It) as (c & Ic & E1 & E2).
    rewrite <- EB in Ic. fold sc in Ic. assert (St : stored nc t c) by (apply stored_eq; [lia|exact E1|exact E2]). pose proof (pair_len _ _ _ _ _ _ Ht) as Lt.
    destruct (P7 c Ic) as [?|[(cam & k & Hm & Hu)|(b & Ib & (cam & k & M1 & M2) & Hle)]]; [left; exists c; auto| |].
    + exfalso. eapply (pair_free nc); [|exact Ht|]; [lia|]. exists cam, k. split; [|exact Hu]. apply (stored_member nc t c cam k ltac:(lia) Lt St); exact Hm.
    + right. exists b. split; [exact Ib|]. split; [exists cam, k; split; [|exact M2]; apply (stored_member nc t c cam k ltac:(lia) Lt St); exact M1|]. rewrite <- E2. exact Hle.
  - intros ->. apply (P7 blank). unfold sc. rewrite EB. apply overwrite_nc_rest. rewrite L0. unfold NMAX in *. lia.
Qed.

(** tnr of the targets from the state after assign_tnr *)
Lemma named nc counts L corrected targets tg : length counts = Z.to_nat nc -> disjoint_cliques nc L -> coords_ok nc counts corrected targets ->
  tnr_state nc L corrected targets (list_prod (zrange 0 (Z.of_nat (length L))) (zrange 0 nc)) tg -> named_by_clique nc L corrected targets tg.
Proof.
  intros Lc HD Hco (Ltg & Hst). split; [exact Ltg|]. intros cam k Hc Hk. specialize (Hst cam k Hc Hk).
  assert (Hlt : forall i, in_clique nc L corrected i cam k -> 0 <= i < Z.of_nat (length L)).
  { intros i (Hi & t & _ & _ & _ & Hn & _). assert (Z.to_nat i < length L)%nat by (apply nth_error_Some; congruence). lia. }
  assert (Hcam : forall i, in_clique nc L corrected i cam k -> 0 <= cam < nc) by (intros i (_ & t & kk & row & c & _ & Hm & _); apply Hm).
  destruct (target_at targets cam k) as [old|]; auto. destruct Hst as [(i & (Hd & Hi) & Ht)|(Hno & Ht)].
  - left. exists i. split; [apply Hlt; auto|]. split; auto. split; auto. intros j Hj. eapply in_clique_unique; eauto.
  - right. split; auto. intros i Hi. apply (Hno i). split; auto. apply in_prod; apply In_zrange; eauto.
Qed.

Lemma free_used n nc cam k : ~ used (repeat (repeat 0 n) nc) cam k.
Proof. intros (_ & _ & row & u & R1 & R2 & R3). apply nth_error_In in R1. apply repeat_spec in R1. subst. apply nth_error_In in R2. apply repeat_spec in R2. lia. Qed.

Lemma stored_in_counts nc counts cl tus accept c : 2 <= nc <= 4 -> wf_adj nc counts cl -> (forall n, In n counts -> 1 <= n) ->
  c = blank \/ (exists t, is_pair cl nc counts tus accept t /\ stored nc t c) -> in_counts nc counts c.
Proof.
  intros Hnc W HN [->|(t & Ht & St)]; [apply blank_in_counts; [lia|apply W|exact HN]|].
  pose proof (pair_len _ _ _ _ _ _ Ht) as Lt. destruct (pair_in_counts nc cl counts tus accept t ltac:(lia) W Ht) as (_ & (cam & k & Hm) & Hk).
  split; [rewrite (proj1 St), app_length, firstn_length, repeat_length; lia|]. split; [exists cam, k; apply (stored_member nc t c cam k ltac:(lia) Lt St); exact Hm|].
  intros cam' k' Hm'. apply Hk. apply (stored_member nc t c cam' k' ltac:(lia) Lt St); exact Hm'.
Qed.

Lemma two_cams srt cl counts corrmin corrected targets :
  sorts srt -> wf_adj 2 counts cl -> (forall n, In n counts -> 1 <= n <= NMAX) -> coords_ok 2 counts corrected targets ->
  exists con tg P,
    correspondences_from srt NMAX cl counts corrmin 2 0 corrected targets [0; 0; 0; 0] = Ok (con, [0; 0; Z.of_nat (length P); Z.of_nat (length P)], tg) /\
    firstn (length P) con = P /\ descending P /\ disjoint_cliques 2 P /\ named_by_clique 2 P corrected targets tg /\
    (forall tus, (forall cam k, ~ used tus cam k) ->
      (forall c, In c P -> c = blank \/ exists t, is_pair cl 2 counts tus corrmin t /\ stored 2 t c) /\
      (forall t, is_pair cl 2 counts tus corrmin t -> (exists c, In c P /\ stored 2 t c) \/ exists b, In b P /\ clash 2 t b /\ np_le (tcorr t) (tcorr b) = true)) /\
    (In blank P \/ exists b, In b P /\ clash 2 blank b /\ np_le fzero (tcorr b) = true).
Proof.
  intros Hs W HN Hco. pose proof (init_inv 2 ltac:(lia)) as I0. assert (HN' : forall n, In n counts -> n <= NMAX) by (intros n Hn; specialize (HN n Hn); lia).
  set (tim0 := repeat (repeat 0 (Z.to_nat NMAX)) (Z.to_nat 2)) in *. assert (F0 : forall cam k, ~ used tim0 cam k) by (intros; apply free_used).
  destruct (pair_phase srt 2 cl counts corrmin _ _ _ _ [] ltac:(lia) Hs W HN I0 ltac:(intros c; apply repeat_spec)) as (sc & n & con0' & con' & tim' & P & E1 & E2 & I & D & NB & HP & HC & HB).
  cbn [app upd] in E2, I. 
  assert (Hin : forall c, In c P -> in_counts 2 counts c). { intros c Hc. eapply (stored_in_counts 2); eauto; [lia|]. intros m Hm. specialize (HN m Hm). lia. }
  destruct (assign_ok 2 counts P con' corrected targets ltac:(lia) (proj1 W) HN' (i_pre _ _ _ I)) as (tg & Htg & Hst); auto.
  { pose proof (i_con _ _ _ I) as X. cbn [fst snd] in X. rewrite X. apply (i_room _ _ _ I). }
  exists con', tg, P. split.
  { unfold correspondences_from. rewrite (eq_refl : (2 =? 4) = false), (eq_refl : (2 =? 3) = false), (eq_refl : (1 <? 2) = true), (eq_refl : (0 =? 0) = true). cbn [andb orb bind].
    change {| tp := repeat 0 4; tcorr := fzero |} with blank. fold tim0. rewrite E1. cbn [bind]. rewrite E2. cbn [bind].
    change (pyget [0; 0; Z.of_nat (length P); Z.of_nat (length P)] 3) with (Ok (Z.of_nat (length P))). cbn [bind]. rewrite Htg. reflexivity. }
  split; [apply (i_pre _ _ _ I)|]. split; [exact D|]. split; [apply (i_disj _ _ _ I)|]. split; [eapply named; eauto; [apply W|apply (i_disj _ _ _ I)]|]. split.
  - intros tus F. assert (EX : forall cam k, used tim0 cam k <-> used tus cam k) by (intros; split; intros X; exfalso; [now apply F0 in X|now apply F in X]). split.
    + intros c Hc. destruct (HP c Hc) as [?|(t & Ht & St)]; [auto|]. right. exists t. split; [now apply (pair_ext tim0)|exact St].
    + intros t Ht. apply HC. apply (pair_ext tus); [intros; symmetry; apply EX|exact Ht].
  - destruct (HB eq_refl) as [?|[(cam & k & _ & Hu)|?]]; auto. exfalso. now apply F0 in Hu.
Qed.

Lemma two_cams_flag srt cl counts corrmin flag corrected targets : flag <> 0 ->
  correspondences_from srt NMAX cl counts corrmin 2 flag corrected targets [0; 0; 0; 0] = Ok (repeat blank (Z.to_nat (NMAX * 2)), [0; 0; 0; 0], targets).
Proof.
  intros Hf. unfold correspondences_from. rewrite (eq_refl : (2 =? 4) = false), (eq_refl : (2 =? 3) = false), (proj2 (Z.eqb_neq flag 0) Hf).
  cbn [andb orb bind]. rewrite (eq_refl : (1 <? 2) = true). cbn [andb bind].
  change (pyget [0; 0; 0; 0] 3) with (Ok 0). cbn [bind]. unfold assign_tnr. change (zrange 0 0) with (@nil Z). cbn [foldM bind]. reflexivity.
Qed.

Lemma blank_member nc cam k : member nc blank cam k -> k = 0.
Proof. intros (_ & _ & H). apply nth_error_In in H. cbn in H. lia. Qed.

Lemma three_cams srt cl counts corrmin flag corrected targets :
  sorts srt -> wf_adj 3 counts cl -> distinct_cands cl -> (forall n, In n counts -> 1 <= n <= NMAX) -> coords_ok 3 counts corrected targets ->
  ((exists tus t, (forall cam k, ~ used tus cam k) /\ is_triplet_padded cl 3 counts tus corrmin t) /\
   correspondences_from srt NMAX cl counts corrmin 3 flag corrected targets [0; 0; 0; 0] = Exn ValueError) \/
  ((forall tus t, (forall cam k, ~ used tus cam k) -> ~ is_triplet_padded cl 3 counts tus corrmin t) /\
   exists con tg P,
    correspondences_from srt NMAX cl counts corrmin 3 flag corrected targets [0; 0; 0; 0] = Ok (con, [0; 1; Z.of_nat (length P); 1 + Z.of_nat (length P)], tg) /\
    firstn (S (length P)) con = blank :: P /\ descending P /\ disjoint_cliques 3 (blank :: P) /\ named_by_clique 3 (blank :: P) corrected targets tg /\
    (flag <> 0 -> P = []) /\
    (forall tus, (forall cam k, used tus cam k <-> 0 <= cam < 3 /\ k = 0) ->
      (forall c, In c P -> exists t, is_pair cl 3 counts tus corrmin t /\ stored 3 t c) /\
      (flag = 0 -> forall t, is_pair cl 3 counts tus corrmin t -> (exists c, In c P /\ stored 3 t c) \/ exists b, In b P /\ clash 3 t b /\ np_le (tcorr t) (tcorr b) = true))).
Proof.
  intros Hs W HD HN Hco. pose proof (init_inv 3 ltac:(lia)) as I0. assert (HN' : forall n, In n counts -> n <= NMAX) by (intros n Hn; specialize (HN n Hn); lia).
  set (tim0 := repeat (repeat 0 (Z.to_nat NMAX)) (Z.to_nat 3)) in *. assert (F0 : forall cam k, ~ used tim0 cam k) by (intros; apply free_used).
  pose proof (inv_table 3 counts _ _ HN' I0) as T0. cbn [fst snd] in T0.
  set (c0 := repeat blank (Z.to_nat (NMAX * 3))) in *.
  assert (L0 : length c0 = Z.to_nat (NMAX * 3)) by apply repeat_length.
  assert (HT : forall tus t, (forall cam k, ~ used tus cam k) -> is_triplet_padded cl 3 counts tus corrmin t -> is_triplet_padded cl 3 counts tim0 corrmin t).
  { intros tus t F H. apply (triplet_ext tus); [|exact H]. intros; split; intros X; exfalso; [now apply F in X|now apply F0 in X]. }
  assert (Hflags : forall b, ((3 =? 4) && b) || (3 =? 3) = true) by (intros; reflexivity).
  destruct (three_cams3 cl counts corrmin c0 (4 * NMAX) tim0 W HD T0 (i_sc _ _ _ I0) ltac:(rewrite L0; unfold NMAX; lia)) as [(E & Hno)|(E & t & Ht)].
  2:{ left. split; [exists tim0, t; auto|]. unfold correspondences_from. rewrite (eq_refl : (3 =? 4) = false), (eq_refl : (3 =? 3) = true). cbn [andb orb bind].
    change {| tp := repeat 0 4; tcorr := fzero |} with blank. fold tim0 c0. rewrite E. reflexivity. }
  right. split; [intros tus t F Ht; now apply (Hno t), (HT tus)|].
  assert (Bic : in_counts 3 counts blank) by (apply blank_in_counts; [lia|apply W|intros n Hn; specialize (HN n Hn); lia]).
  destruct (phase_ok srt 1 3 c0 0 c0 c0 tim0 [0; 0; 0; 0] [] Hs ltac:(lia) ltac:(lia) I0 ltac:(lia) L0 (i_sc _ _ _ I0)) as (con0 & con & tim & M & P1 & P2 & P3 & P4 & P5 & P6 & P7).
  { intros c Hc. unfold c0 in Hc. rewrite (repeat_spec _ _ _ Hc). apply (in_counts_fits 3 counts); auto; lia. }
  assert (HM : M = [blank]).
  { assert (AB : forall c, In c M -> c = blank) by (intros c Hc; apply P4 in Hc; destruct Hc as [Hc _]; unfold c0 in Hc; apply (repeat_spec _ _ _ Hc)).
    assert (Ib : In blank M).
    { destruct (P7 blank) as [?|[(cam & k & _ & Hu)|(b & Ib & _)]]; auto.
      - unfold c0. destruct (Z.to_nat (NMAX * 3)) eqn:X; [unfold NMAX in X; lia|]. now left.
      - exfalso. now apply F0 in Hu.
      - now rewrite <- (AB b Ib). }
    pose proof (i_disj _ _ _ P2) as Dj. cbn [app] in Dj.
    destruct M as [|a [|b M']]; [destruct Ib|rewrite (AB a (or_introl eq_refl)); reflexivity|]. exfalso.
    apply (Dj 0%nat 1%nat a b); [lia|reflexivity|reflexivity|]. rewrite (AB a), (AB b) by (simpl; auto). destruct (proj1 (proj2 Bic)) as (cam & k & Hm). exists cam, k. split; exact Hm. }
  subst M. cbn [app length] in P1, P2. change (upd (upd [0; 0; 0; 0] (Z.to_nat 1) (Z.of_nat 1)) 3 (Z.of_nat 1)) with [0; 1; 0; 1] in P1, P2.
  assert (B0 : forall c, In c con0 -> c = blank) by (intros c Hc; eapply Permutation_in in Hc; [|exact P3]; unfold c0 in Hc; apply (repeat_spec _ _ _ Hc)).
  assert (EU : forall tus, (forall cam k, used tus cam k <-> 0 <= cam < 3 /\ k = 0) -> forall cam k, used tim cam k <-> used tus cam k).
  { intros tus F cam k. rewrite F. pose proof (i_used _ _ _ P2 cam k) as X. cbn [fst snd] in X. rewrite X. split.
    - intros (a & [<-|[]] & Hm). split; [apply Hm|eapply blank_member; exact Hm].
    - intros (Hc & ->). exists blank. split; [now left|]. split; [exact Hc|]. split; [lia|]. assert (C : cam = 0 \/ cam = 1 \/ cam = 2) by lia. destruct C as [->|[->| ->]]; reflexivity. }
  assert (BB : blocked 3 tim blank).
  { exists 0, 0. assert (Hm : member 3 blank 0 0) by (split; [lia|split; [lia|reflexivity]]). split; [exact Hm|]. pose proof (i_used _ _ _ P2 0 0) as X. cbn [fst snd] in X. apply X. exists blank. split; [now left|exact Hm]. }
  destruct (Z.eqb_spec flag 0) as [->|Hf].
  - destruct (pair_phase srt 3 cl counts corrmin con0 con tim [0; 1; 0; 1] [blank] ltac:(lia) Hs W HN P2 B0) as (sc & n & con0' & con' & tim' & P & E1 & E2 & I & D & NB & HP & HC & _).
    cbn [app upd length] in E2, I.
    assert (HP' : forall c, In c P -> exists t, is_pair cl 3 counts tim corrmin t /\ stored 3 t c) by (intros c Hc; destruct (HP c Hc) as [->|X]; [exfalso; now apply (NB blank)|exact X]).
    assert (Hin : forall c, In c (blank :: P) -> in_counts 3 counts c).
    { intros c [<-|Hc]; [exact Bic|]. apply (stored_in_counts 3 counts cl tim corrmin); [lia|exact W|intros m Hm; specialize (HN m Hm); lia|right; auto]. }
    destruct (assign_ok 3 counts (blank :: P) con' corrected targets ltac:(lia) (proj1 W) HN' (i_pre _ _ _ I)) as (tg & Htg & Hst); auto.
    { pose proof (i_con _ _ _ I) as X. cbn [fst snd] in X. rewrite X. apply (i_room _ _ _ I). }
    exists con', tg, P. replace (1 + Z.of_nat (length P)) with (Z.of_nat (S (length P))) by lia. split.
    { unfold correspondences_from. rewrite (eq_refl : (3 =? 4) = false), (eq_refl : (3 =? 3) = true), (eq_refl : (1 <? 3) = true), (eq_refl : (0 =? 0) = true). cbn [andb orb bind].
      change {| tp := repeat 0 4; tcorr := fzero |} with blank. fold tim0 c0. rewrite E. cbn [bind]. rewrite P1. cbn [bind]. rewrite E1. cbn [bind]. rewrite E2. cbn [bind].
      change (pyget [0; 1; Z.of_nat (length P); Z.of_nat (S (length P))] 3) with (Ok (Z.of_nat (S (length P)))). cbn [bind]. cbn [length] in Htg. rewrite Htg. reflexivity. }
    split; [apply (i_pre _ _ _ I)|]. split; [exact D|]. split; [apply (i_disj _ _ _ I)|]. split; [eapply named; eauto; [apply W|apply (i_disj _ _ _ I)]|]. split; [intros X; now elim X|].
    intros tus F. specialize (EU tus F). split.
    + intros c Hc. destruct (HP' c Hc) as (t & Ht & St). exists t. split; [now apply (pair_ext tim)|exact St].
    + intros _ t Ht. apply HC. apply (pair_ext tus); [intros; symmetry; apply EU|exact Ht].
  - destruct (assign_ok 3 counts [blank] con corrected targets ltac:(lia) (proj1 W) HN' (i_pre _ _ _ P2)) as (tg & Htg & Hst).
    { pose proof (i_con _ _ _ P2) as X. cbn [fst snd] in X. rewrite X. apply (i_room _ _ _ P2). }
    { intros c [<-|[]]. exact Bic. }
    { exact Hco. }
    exists con, tg, []. cbn [length]. change (1 + Z.of_nat 0) with 1. change (Z.of_nat 0) with 0. split.
    { unfold correspondences_from. rewrite (eq_refl : (3 =? 4) = false), (eq_refl : (3 =? 3) = true), (eq_refl : (1 <? 3) = true), (proj2 (Z.eqb_neq flag 0) Hf). cbn [andb orb bind].
      change {| tp := repeat 0 4; tcorr := fzero |} with blank. fold tim0 c0. rewrite E. cbn [bind]. rewrite P1. cbn [bind].
      change (pyget [0; 1; 0; 1] 3) with (Ok 1). cbn [bind]. cbn [length] in Htg. change (Z.of_nat 1) with 1 in Htg. rewrite Htg. reflexivity. }
    split; [apply (i_pre _ _ _ P2)|]. split; [intros [|i] j a b _ X; discriminate X|]. split; [apply (i_disj _ _ _ P2)|]. split; [eapply named; eauto; [apply W|apply (i_disj _ _ _ P2)]|]. split; [auto|].
    intros tus F. split; [intros c []|]. intros X. now elim Hf.
Qed.

(** concrete lists for two and three cameras *)
Definition few_adj (cands : Z -> Z -> Z -> result (list (Z * f64 * f64))) (nc : nat) : adj := unok [] (match_pairs cands (Z.of_nat nc) (repeat 2 nc) (empty_adj nc 2)).
Lemma few_ok cands nc : (nc = 2%nat \/ nc = 3%nat) ->
  (forall a b i, 0 <= i < 2 -> exists l, cands a b i = Ok l /\ (length l <= 40)%nat /\ (forall x, In x l -> 0 <= fst (fst x) < 2) /\ NoDup (map (fun x => fst (fst x)) l)) ->
  wf_adj (Z.of_nat nc) (repeat 2 nc) (few_adj cands nc) /\ distinct_cands (few_adj cands nc) /\
  (forall n, In n (repeat 2 nc) -> 1 <= n <= NMAX) /\ coords_ok (Z.of_nat nc) (repeat 2 nc) (repeat [crd 1; crd 0] nc) (repeat [tar 0; tar 1] nc).
Proof.
  intros Hnc H.
  assert (G : forall a n, nth_error (repeat 2 nc) a = Some n -> n = 2) by (intros a n X; apply nth_error_In, repeat_spec in X; auto).
  assert (L : length (repeat 2 nc) = Z.to_nat (Z.of_nat nc)) by (rewrite repeat_length; lia).
  destruct (match_pairs_exact cands (Z.of_nat nc) (repeat 2 nc) 2) as (cl' & E1 & W & D & _); try lia; auto.
  - intros n Hn. apply repeat_spec in Hn. lia.
  - intros a b i na nb Hab Hb Na Nb Hi. apply G in Na, Nb. subst. apply H; auto.
  - rewrite Nat2Z.id in E1. unfold few_adj. rewrite E1. cbn [unok]. split; auto. split; auto. split; [intros n Hn; apply repeat_spec in Hn; subst; unfold NMAX; lia|].
    split; [rewrite repeat_length; lia|]. split; [rewrite repeat_length; lia|]. intros cam n cs ts Hn Hc Ht.
    apply G in Hn. subst n. apply nth_error_In, repeat_spec in Hc. apply nth_error_In, repeat_spec in Ht. subst.
    split; [reflexivity|]. split; [reflexivity|]. split.
    + simpl. intros c [<-|[<-|[]]]; simpl; lia.
    + simpl. repeat constructor; simpl; intuition congruence.
Qed.

Lemma two_cams_any srt cl counts corrmin flag corrected targets :
  sorts srt -> wf_adj 2 counts cl -> (forall n, In n counts -> 1 <= n <= NMAX) -> coords_ok 2 counts corrected targets ->
  exists con tg P,
    correspondences_from srt NMAX cl counts corrmin 2 flag corrected targets [0; 0; 0; 0] =
      Ok (con, [0; 0; Z.of_nat (length P); Z.of_nat (length P)], tg) /\
    firstn (length P) con = P /\ descending P /\ disjoint_cliques 2 P /\ named_by_clique 2 P corrected targets tg /\
    (flag <> 0 -> P = []) /\
    (forall tus, (forall cam k, ~ used tus cam k) ->
      (forall c, In c P -> c = blank \/ exists t, is_pair cl 2 counts tus corrmin t /\ stored 2 t c) /\
      (flag = 0 -> forall t, is_pair cl 2 counts tus corrmin t -> (exists c, In c P /\ stored 2 t c) \/
         exists b, In b P /\ clash 2 t b /\ np_le (tcorr t) (tcorr b) = true)) /\
    (flag = 0 -> In blank P \/ exists b, In b P /\ clash 2 blank b /\ np_le fzero (tcorr b) = true).
Proof.
  intros Hs W HN Hco. destruct (Z.eq_dec flag 0) as [->|Hf].
  - destruct (two_cams srt cl counts corrmin corrected targets Hs W HN Hco) as (con & tg & P & A1 & A2 & A3 & A4 & A5 & A6 & A7).
    exists con, tg, P. do 5 (split; [assumption|]). split; [intros X; now elim X|]. split; [|intros _; exact A7].
    intros tus F. destruct (A6 tus F) as (B1 & B2). split; [exact B1|intros _; exact B2].
  - exists (repeat blank (Z.to_nat (NMAX * 2))), targets, []. split; [now apply two_cams_flag|]. split; [reflexivity|].
    split; [intros [|i] j a b _ X; discriminate X|]. split; [intros [|i] j a b _ X; discriminate X|]. split.
    { split; [reflexivity|]. intros cam k Hc Hk. destruct (target_at targets cam k) as [old|]; [|reflexivity]. right. split; [|reflexivity].
      intros i (_ & t & _ & _ & _ & X & _). destruct (Z.to_nat i); discriminate X. }
    split; [auto|]. split; [|intros X; now elim Hf]. intros tus F. split; [intros c []|intros X; now elim Hf].
Qed.

Lemma few_edge nc a b i : (nc = 2%nat \/ nc = 3%nat) -> 0 <= a < b -> b < Z.of_nat nc -> 0 <= i < 2 -> edge (few_adj ex_cands nc) a b i i f2 f1.
Proof.
  intros Hnc Hab Hb Hi.
  assert (G : forall a n, nth_error (repeat 2 nc) a = Some n -> n = 2) by (intros a' n X; apply nth_error_In, repeat_spec in X; auto).
  destruct (match_pairs_exact ex_cands (Z.of_nat nc) (repeat 2 nc) 2) as (cl' & E1 & W & D & He); try lia; auto.
  - rewrite repeat_length. lia.
  - intros n Hn. apply repeat_spec in Hn. lia.
  - intros a' b' i' na nb Hab' Hb' Na Nb Hi'. apply G in Na, Nb. subst. exists [(i', f2, f1)]. split; [reflexivity|]. simpl. split; [lia|]. split; [intros x [<-|[]]; simpl; lia|]. repeat constructor. intros [].
  - rewrite Nat2Z.id in E1. unfold few_adj. rewrite E1. cbn [unok].
    destruct (nth_error (repeat 2 nc) (Z.to_nat a)) as [na|] eqn:Na. 2:{ apply nth_error_None in Na. rewrite repeat_length in Na. lia. }
    apply (He a b i na); auto; [apply G in Na; lia|]. exists [(i, f2, f1)]. simpl; auto.
Qed.
Lemma few_none nc a b i j x d : (nc = 2%nat \/ nc = 3%nat) -> 0 <= a < b -> b < Z.of_nat nc -> 0 <= i < 2 -> ~ edge (few_adj no_cands nc) a b i j x d.
Proof.
  intros Hnc Hab Hb Hi He0.
  assert (G : forall a n, nth_error (repeat 2 nc) a = Some n -> n = 2) by (intros a' n X; apply nth_error_In, repeat_spec in X; auto).
  destruct (match_pairs_exact no_cands (Z.of_nat nc) (repeat 2 nc) 2) as (cl' & E1 & W & D & He); try lia; auto.
  - rewrite repeat_length. lia.
  - intros n Hn. apply repeat_spec in Hn. lia.
  - intros a' b' i' na nb Hab' Hb' Na Nb Hi'. exists []. split; [reflexivity|]. simpl. split; [lia|]. split; [intros y []|constructor].
  - rewrite Nat2Z.id in E1. unfold few_adj in He0. rewrite E1 in He0. cbn [unok] in He0.
    destruct (nth_error (repeat 2 nc) (Z.to_nat a)) as [na|] eqn:Na. 2:{ apply nth_error_None in Na. rewrite repeat_length in Na. lia. }
    apply (He a b i na) in He0; auto; [|apply G in Na; lia]. destruct He0 as (l & [= <-] & []).
Qed.

Lemma few_case : sorts isort /\
  (let cl := few_adj ex_cands 2 in wf_adj 2 [2; 2] cl /\ distinct_cands cl /\ coords_ok 2 [2; 2] (repeat [crd 1; crd 0] 2) (repeat [tar 0; tar 1] 2) /\
     is_pair cl 2 [2; 2] [[0; 0]; [0; 0]] f1 {| tp := [1; 1; -2; -2]; tcorr := f2 |}) /\
  (let cl := few_adj ex_cands 3 in wf_adj 3 [2; 2; 2] cl /\ distinct_cands cl /\ coords_ok 3 [2; 2; 2] (repeat [crd 1; crd 0] 3) (repeat [tar 0; tar 1] 3) /\
     is_triplet_padded cl 3 [2; 2; 2] [[0; 0]; [0; 0]; [0; 0]] f1 {| tp := [1; 1; 1; -2]; tcorr := f2 |}) /\
  (let cl := few_adj no_cands 3 in wf_adj 3 [2; 2; 2] cl /\ distinct_cands cl /\ coords_ok 3 [2; 2; 2] (repeat [crd 1; crd 0] 3) (repeat [tar 0; tar 1] 3) /\
     forall tus t, ~ is_triplet_padded cl 3 [2; 2; 2] tus f1 t).
Proof.
  assert (He : forall a b i, 0 <= i < 2 -> exists l, ex_cands a b i = Ok l /\ (length l <= 40)%nat /\ (forall x, In x l -> 0 <= fst (fst x) < 2) /\ NoDup (map (fun x => fst (fst x)) l)).
  { intros a b i Hi. exists [(i, f2, f1)]. split; [reflexivity|]. simpl. split; [lia|]. split; [intros x [<-|[]]; simpl; lia|]. repeat constructor. intros []. }
  assert (Hn : forall a b i, 0 <= i < 2 -> exists l, no_cands a b i = Ok l /\ (length l <= 40)%nat /\ (forall x, In x l -> 0 <= fst (fst x) < 2) /\ NoDup (map (fun x => fst (fst x)) l)).
  { intros a b i Hi. exists []. split; [reflexivity|]. simpl. split; [lia|]. split; [intros x []|constructor]. }
  pose proof (few_ok ex_cands 2 (or_introl eq_refl) He) as (W2 & D2 & _ & C2).
  pose proof (few_ok ex_cands 3 (or_intror eq_refl) He) as (W3 & D3 & _ & C3).
  pose proof (few_ok no_cands 3 (or_intror eq_refl) Hn) as (W0 & D0 & _ & C0).
  split; [exact isort_sorts|]. split; [|split].
  - cbv zeta. split; [exact W2|]. split; [exact D2|]. split; [exact C2|].
    exists 0, 1, 2, 1, 1, f2, f1. split; [lia|]. split; [lia|]. split; [lia|]. split; [reflexivity|]. split; [lia|].
    split; [apply (free_used 2 2)|]. split; [apply (free_used 2 2)|]. split; [apply few_edge; auto; lia|]. split.
    + intros c (_ & _ & _ & l1 & l2 & N1 & N2 & N3). vm_compute in N1. inversion N1; subst. vm_compute in N2. inversion N2; subst. vm_compute in N3. inversion N3; subst. reflexivity.
    + split; [reflexivity|]. split; vm_compute; reflexivity.
  - cbv zeta. split; [exact W3|]. split; [exact D3|]. split; [exact C3|].
    exists 0, 1, 2, 2, 1, 1, 1, f2, f1, f2, f1, f2, f1. split; [lia|]. split; [lia|]. split; [lia|]. split; [lia|]. split; [reflexivity|]. split; [lia|].
    do 3 (split; [apply (free_used 2 3)|]). split; [apply few_edge; auto; lia|]. split; [apply few_edge; auto; lia|].
    split; [left; apply few_edge; auto; lia|]. split; [reflexivity|]. split; vm_compute; reflexivity.
  - cbv zeta. split; [exact W0|]. split; [exact D0|]. split; [exact C0|]. intros tus t (i1 & i2 & i3 & n1 & p1 & p2 & p3 & x12 & d12 & x13 & d13 & x23 & d23 & A1 & A2 & A3 & A4 & A5 & A6 & _ & _ & _ & A7 & _).
    apply nth_error_In in A5. cbn in A5. revert A7. apply few_none; auto; lia.
Qed.
