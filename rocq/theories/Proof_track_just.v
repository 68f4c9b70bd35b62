(** Every link made by a tracking step has a reason; added particles lie in the volume. *)
From Coq Require Import Permutation Sorted.
From Verif Require Import Base Lib F64 Model_corr Model_cand Spec_cand Model_track Spec_track Proof_track_search Proof_track_rank Proof_track_reg Proof_track_link Proof_track_step.
Local Open Scope Z_scope.

(** ---- loops with break ---- *)
Lemma forC_inv {S} (P : S -> Prop) (step : Z -> S -> ctl S) l s s' :
  runC (forC l step s) = Ok s' -> P s ->
  (forall j s, In j l -> P s -> match step j s with Next a => P a | Ret a => P a | _ => True end) -> P s'.
Proof.
  revert s. induction l as [|j l IH]; intros s H HP HS; cbn [forC] in H.
  - cbn in H. congruence.
  - pose proof (HS j s (or_introl eq_refl) HP) as H1. destruct (step j s) as [a|a|e] eqn:E; cbn [bindC runC] in H.
    + apply (IH a); auto. intros; apply HS; simpl; auto.
    + congruence.
    + discriminate.
Qed.

(** the target returned by candsearch_in_pix_rest is a free target inside the window *)
Lemma rest_hit pixdist nf num cx cy dl dr du dd imx imy cnt p :
  candsearch_in_pix_rest pixdist nf num cx cy dl dr du dd (-1) imx imy = Ok (cnt, p) ->
  (cnt = 0 /\ p = -1) \/
  (cnt = 1 /\ 0 <= p /\ exists t d, nth_error nf (Z.to_nat p) = Some t /\
     target_hit pixdist free nf cx cy dl dr du dd imx imy p d).
Proof.
  unfold candsearch_in_pix_rest. set (w := clip_window cx cy dl dr du dd imx imy).
  destruct (center_in_image cx cy imx imy); [|intros H; injection H as <- <-; auto].
  intros H. apply bind_ok in H as (j0 & Hj & H). apply bind_ok in H as (s & Hs & H). injection H as <- <-.
  assert (J0 : 0 <= j0).
  { unfold pix_start in Hj. apply bind_ok in Hj as (k & _ & Hj). destruct (k - 12 <? 0) eqn:E; injection Hj as <-; lia. }
  apply (forC_inv (fun s => fst s = -1 \/ (0 <= fst s /\ exists t, nth_error nf (Z.to_nat (fst s)) = Some t /\ free t = true /\ inside w t = true))) in Hs.
  - destruct Hs as [E|(P & t & T1 & T2 & T3)].
    + left. rewrite E. auto.
    + right. destruct (Z.eqb_spec (fst s) (-1)); [lia|]. split; auto. split; auto. exists t. eexists. split; auto.
      apply hit_plain. exists t. split; auto.
  - left. reflexivity.
  - intros j s1 Hj1 HP. apply In_zrange in Hj1. unfold rest_step.
    destruct (pyget nf j) as [t|e] eqn:Et; cbn [tryC]; [|exact I]. apply pyget_ok_iff in Et; [|lia].
    destruct (t_tnr t =? TR_UNUSED) eqn:Eu; [|exact HP].
    destruct (fgt (t_y t) (w_ymax w)); [exact HP|]. destruct (inside w t) eqn:Ei; [|exact HP].
    destruct (flt _ (snd s1)); [|exact HP]. right. cbn [fst]. split; [lia|]. exists t. split; auto.
Qed.

Lemma hit_not_unused pixdist nf cx cy dl dr du dd imx imy j d t :
  target_hit pixdist free nf cx cy dl dr du dd imx imy j d -> nth_error nf (Z.to_nat j) = Some t ->
  feq (t_x t) COORD_UNUSED = false /\ feq (t_y t) COORD_UNUSED = false.
Proof.
  intros (t' & _ & Ht & _ & _ & (X & _ & Y & _) & _) Ht'. assert (t' = t) as -> by congruence.
  assert (K : forall v, flt fzero v = true -> feq v COORD_UNUSED = false).
  { intros v Hv. destruct (feq v COORD_UNUSED) eqn:E; auto.
    assert (A : flt COORD_UNUSED v = true) by (apply (flt_trans _ fzero); auto).
    rewrite (feq_flt_r v COORD_UNUSED COORD_UNUSED E) in A. rewrite flt_irrefl in A. discriminate. }
  auto.
Qed.

(** ---- targets only get used, never freed or moved ---- *)
Definition retagged (a b : list (list target)) : Prop :=
  Forall2 (Forall2 (fun t t' => t' = t \/ exists v, 0 <= v /\ t' = set_tnr t v)) a b.
Lemma F2_refl {A} (R : A -> A -> Prop) l : (forall a, R a a) -> Forall2 R l l.
Proof. intros H. induction l; constructor; auto. Qed.
Lemma F2_trans {A} (R : A -> A -> Prop) a : (forall x y z, R x y -> R y z -> R x z) ->
  forall b c, Forall2 R a b -> Forall2 R b c -> Forall2 R a c.
Proof.
  intros T. induction a as [|x a IH]; intros b c H1 H2.
  - inversion H1; subst. inversion H2; subst. constructor.
  - inversion H1; subst. inversion H2; subst. constructor; eauto.
Qed.
Lemma F2_nth {A B} (R : A -> B -> Prop) a b i y : Forall2 R a b -> nth_error b i = Some y ->
  exists x, nth_error a i = Some x /\ R x y.
Proof.
  intros H. revert i. induction H; intros i Hi; [destruct i; discriminate|].
  destruct i as [|i]; simpl in *; [injection Hi as <-; eauto|eauto].
Qed.
Lemma F2_upd {A B} (R : A -> B -> Prop) a b i v : Forall2 R a b ->
  (forall x, nth_error a i = Some x -> R x v) -> Forall2 R a (upd b i v).
Proof.
  intros H. revert i. induction H; intros i Hi; [destruct i; constructor|].
  destruct i as [|i]; simpl; constructor; auto.
Qed.
Lemma retag1_trans t1 t2 t3 : (t2 = t1 \/ exists v, 0 <= v /\ t2 = set_tnr t1 v) ->
  (t3 = t2 \/ exists v, 0 <= v /\ t3 = set_tnr t2 v) -> (t3 = t1 \/ exists v, 0 <= v /\ t3 = set_tnr t1 v).
Proof. intros [->|(v & V & ->)] [->|(u & U & ->)]; eauto. Qed.
Lemma retagged_refl a : retagged a a.
Proof. apply F2_refl. intros l. apply F2_refl. auto. Qed.
Lemma retagged_trans a b c : retagged a b -> retagged b c -> retagged a c.
Proof. intros H1 H2. eapply F2_trans; eauto. intros. eapply F2_trans; eauto. intros. eapply retag1_trans; eauto. Qed.

Lemma add_particle_tags nc frm pos inds frm' : 0 <= fr_num frm -> 0 <= nc ->
  (forall c ix, 0 <= c < nc -> pyget inds c = Ok ix -> -1 <= ix) ->
  add_particle nc frm pos inds = Ok frm' -> retagged (fr_targ frm) (fr_targ frm').
Proof.
  intros Hn Hnc HX H. unfold add_particle in H. destruct (_ >? _); [discriminate|].
  apply bind_ok in H as ([cor targ] & H & H'). injection H' as <-. cbn [fr_targ snd].
  apply (foldM_inv (fun _ '(_, targ) => retagged (fr_targ frm) targ)) in H; [auto|apply retagged_refl|].
  intros done cam rest [c0 t0] [c1 t1] Ez HI Hs. apply zrange_split in Ez as (_ & Hcam & _).
  apply bind_ok in Hs as (row & _ & Hs). apply bind_ok in Hs as (c' & _ & Hs). apply bind_ok in Hs as (ix & Hix & Hs).
  apply HX in Hix; [|lia].
  destruct (ix =? PT_UNUSED) eqn:Eu; [injection Hs as <- <-; auto|].
  apply bind_ok in Hs as (tl & Htl & Hs). apply bind_ok in Hs as (t & Ht & Hs). apply bind_ok in Hs as (tl' & Htl' & Hs).
  apply bind_ok in Hs as (targ' & Htg & Hs). apply bind_ok in Hs as (c'' & _ & Hs). injection Hs as <- <-.
  apply pyset_ok in Htg as (L & ->); [|lia]. apply pyget_ok_iff in Htl; [|lia].
  apply F2_upd; auto. intros x Hx. destruct (F2_nth _ _ _ _ _ HI Htl) as (x' & Hx' & R). assert (x' = x) as -> by congruence.
  assert (U : exists k, nth_error tl k = Some t /\ tl' = upd tl k (set_tnr t (fr_num frm))).
  { unfold pyget in Ht. unfold pyset in Htl'. destruct (pyidx (length tl) ix) as [k|]; [|discriminate].
    destruct (nth_error tl k) as [u|] eqn:Ek; [|discriminate]. injection Ht as <-. injection Htl' as <-. eauto. }
  destruct U as (k & Hk & ->). apply F2_upd; auto. intros y Hy.
  destruct (F2_nth _ _ _ _ _ R Hk) as (y' & Hy' & R'). assert (y' = y) as -> by congruence.
  right. exists (fr_num frm). split; auto. destruct R' as [->|(v & _ & ->)]; reflexivity.
Qed.

Lemma sighting_before pixdist ncam imx imy ptp tf a b x n fl : retagged a b ->
  sighting pixdist ncam imx imy ptp tf b x n fl -> sighting pixdist ncam imx imy ptp tf a x n fl.
Proof.
  intros R (seen & H1 & H2 & H3 & H4 & H5). exists seen. split; auto. split; auto. split; auto. split; auto.
  intros c t Hc. destruct (H5 c t Hc) as (A & tl & j & d & B & C & D). split; auto.
  destruct (F2_nth _ _ _ _ _ R B) as (tl0 & E1 & E2). exists tl0, j, d. split; auto.
  destruct (F2_nth _ _ _ _ _ E2 C) as (t0 & F1 & F2).
  destruct (ptp (Z.of_nat c) x) as [cx cy]. destruct D as (t' & D1 & D2 & D3 & D4 & D5 & D6).
  assert (t' = t) as -> by congruence.
  assert (t = t0). { destruct F2 as [->|(v & V & ->)]; auto. unfold free in D3. cbn in D3. lia. }
  subst t0. split; auto. exists t. auto 10.
Qed.

Lemma assess_sighting pixdist ncam imx imy ptp tf x frm n fl inds :
  assess_new_position pixdist (Z.of_nat ncam) imx imy ptp tf x frm = Ok (n, fl, inds) ->
  sighting pixdist ncam imx imy ptp tf (fr_targ frm) x n fl /\
  (forall c ix, 0 <= c < Z.of_nat ncam -> pyget inds c = Ok ix -> -1 <= ix).
Proof.
  unfold assess_new_position. intros H. apply bind_ok in H as ([tpos inds'] & H1 & H).
  apply bind_ok in H as ([valid out] & H2 & H). injection H as <- <- <-. cbn [fst snd].
  set (W := f_of_Z ADD_PART) in *.
  set (good := fun (c : nat) (t : target) => exists tl j d, nth_error (fr_targ frm) c = Some tl /\ nth_error tl (Z.to_nat j) = Some t /\
         let '(cx, cy) := ptp (Z.of_nat c) x in target_hit pixdist free tl cx cy W W W W imx imy j d).
  assert (A : exists seen, length seen = ncam /\
     tpos = map (fun o => match o with Some t => (t_x t, t_y t) | None => (COORD_UNUSED, COORD_UNUSED) end) seen /\
     (forall c t, nth_error seen c = Some (Some t) -> good c t) /\ length inds' = ncam /\ Forall (fun ix => -1 <= ix) inds').
  { apply (foldM_inv (fun done '(tpos, inds) => exists seen, length seen = length done /\
     tpos = map (fun o => match o with Some t => (t_x t, t_y t) | None => (COORD_UNUSED, COORD_UNUSED) end) seen /\
     (forall c t, nth_error seen c = Some (Some t) -> good c t) /\ length inds = length done /\ Forall (fun ix => -1 <= ix) inds)) in H1.
    - destruct H1 as (seen & B1 & B2 & B3 & B4 & B5). rewrite zrange_length in *. exists seen.
      split; [lia|]. split; auto. split; auto. split; auto. lia.
    - exists []. split; auto. split; auto. split; auto. intros c t Hc. destruct c; discriminate.
    - intros done cam rest [tp1 in1] [tp2 in2] Ez (seen & B1 & B2 & B3 & B4 & B5) Hs.
      apply zrange_split in Ez as (_ & Hcam & Ecam). replace cam with (Z.of_nat (length done)) in * by lia.
      apply bind_ok in Hs as (tl & Htl & Hs). apply pyget_ok_iff in Htl; [|lia]. rewrite Nat2Z.id in Htl.
      apply bind_ok in Hs as (nt & _ & Hs). apply bind_ok in Hs as ([num ix] & Hr & Hs).
      apply rest_hit in Hr as [(-> & ->)|(-> & P & t & d & Ht & HH)].
      + change (0 >? 0) with false in Hs. cbn iota in Hs. injection Hs as <- <-. exists (seen ++ [None]).
        rewrite !app_length. cbn [length]. split; [lia|]. rewrite map_app, B2. split; auto. split; [|split; [lia|]].
        * intros c t Hc. destruct (Nat.lt_ge_cases c (length seen)).
          -- rewrite nth_error_app1 in Hc by auto. auto.
          -- rewrite nth_error_app2 in Hc by auto. destruct (c - length seen)%nat as [|[|]]; discriminate.
        * apply Forall_app. split; auto. constructor; auto. lia.
      + change (1 >? 0) with true in Hs. cbn iota in Hs. rewrite (pyget_nonneg tl ix t) in Hs by auto. cbn [bind] in Hs.
        injection Hs as <- <-. exists (seen ++ [Some t]).
        rewrite !app_length. cbn [length]. split; [lia|]. rewrite map_app, B2. split; auto. split; [|split; [lia|]].
        * intros c t' Hc. destruct (Nat.lt_ge_cases c (length seen)).
          -- rewrite nth_error_app1 in Hc by auto. auto.
          -- rewrite nth_error_app2 in Hc by auto. destruct (c - length seen)%nat as [|[|]] eqn:Ec; try discriminate.
             simpl in Hc. injection Hc as <-. replace c with (length done) by lia.
             exists tl, ix, d. split; auto. split; auto. destruct (ptp (Z.of_nat (length done)) x). exact HH.
        * apply Forall_app. split; auto. constructor; auto. lia. }
  destruct A as (seen & A1 & A2 & A3 & A4 & A5). split.
  2:{ intros c ix Hc Hg. apply pyget_ok_iff in Hg; [|lia]. rewrite Forall_forall in A5. apply A5. eapply nth_error_In; eauto. }
  exists seen. split; auto. change (f_of_Z 3) with W.
  assert (B : length out = ncam /\
    valid = Z.of_nat (length (filter (fun o : option target => match o with Some _ => true | None => false end) seen)) /\
    (forall c, nth_error seen c = Some None -> nth_error out c = Some (COORD_UNUSED, COORD_UNUSED)) /\
    (forall c t, nth_error seen c = Some (Some t) -> nth_error out c = Some (tf (Z.of_nat c) (t_x t) (t_y t)))).
  { apply (foldM_inv (fun done '(valid, out) => length out = length done /\ (length done <= ncam)%nat /\
      valid = Z.of_nat (length (filter (fun o : option target => match o with Some _ => true | None => false end) (firstn (length done) seen))) /\
      (forall c, (c < length done)%nat -> nth_error seen c = Some None -> nth_error out c = Some (COORD_UNUSED, COORD_UNUSED)) /\
      (forall c t, (c < length done)%nat -> nth_error seen c = Some (Some t) -> nth_error out c = Some (tf (Z.of_nat c) (t_x t) (t_y t))))) in H2.
    - destruct H2 as (C1 & _ & C2 & C3 & C4). rewrite zrange_length in *. replace (Z.to_nat (Z.of_nat ncam - 0)) with ncam in * by lia.
      split; auto. rewrite <- A1 in C2 at 1. rewrite firstn_all in C2. split; auto.
      split; [intros c Hc; apply C3; auto|intros c t Hc; apply C4; auto]; rewrite <- A1; apply nth_error_Some; congruence.
    - cbn [length firstn]. split; auto. split; [lia|]. split; auto. split; intros; lia.
    - intros done cam rest [v1 o1] [v2 o2] Ez (C1 & C0 & C2 & C3 & C4) Hs.
      apply zrange_split in Ez as (_ & Hcam & Ecam). replace cam with (Z.of_nat (length done)) in * by lia.
      set (k := length done) in *. apply bind_ok in Hs as (q & Hq & Hs). apply pyget_ok_iff in Hq; [|lia]. rewrite Nat2Z.id in Hq.
      rewrite app_length. cbn [length]. rewrite Nat.add_1_r. fold k.
      rewrite A2, nth_error_map in Hq. destruct (nth_error seen k) as [o|] eqn:Eo; [|discriminate]. cbn in Hq. injection Hq as <-.
      assert (FS : firstn (S k) seen = firstn k seen ++ [o]).
      { clear -Eo. revert seen Eo. induction k as [|k IH]; intros [|y s] E; try discriminate; cbn in *.
        - injection E as ->. reflexivity. - f_equal. apply IH; auto. }
      rewrite FS, filter_app, app_length.
      assert (NEW : forall w, nth_error (o1 ++ [w]) k = Some w) by (intros w; rewrite nth_error_app2, C1, Nat.sub_diag by lia; reflexivity).
      assert (OLD : forall w c, (c < k)%nat -> nth_error (o1 ++ [w]) c = nth_error o1 c) by (intros w c Hc; rewrite nth_error_app1 by lia; reflexivity).
      destruct o as [t|].
      + destruct (A3 k t Eo) as (tl & j & d & T1 & T2 & T3). destruct (ptp (Z.of_nat k) x) as [cx cy] eqn:Ep.
        destruct (hit_not_unused _ _ _ _ _ _ _ _ _ _ _ _ _ T3 T2) as (U1 & U2). cbn [fst snd] in Hs. rewrite U1, U2 in Hs. cbn [negb andb] in Hs.
        injection Hs as <- <-. rewrite app_length. cbn [length filter]. split; [lia|]. split; [lia|]. split; [lia|].
        split; intros c; intros; (destruct (Nat.eq_dec c k) as [->|N]; [|rewrite OLD by lia]).
        * congruence.
        * apply C3; auto. lia.
        * rewrite NEW. congruence.
        * apply C4; auto. lia.
      + assert (E : feq COORD_UNUSED COORD_UNUSED = true) by reflexivity. cbn [fst snd] in Hs. rewrite E in Hs. cbn [negb andb] in Hs.
        injection Hs as <- <-. rewrite app_length. cbn [length filter]. split; [lia|]. split; [lia|]. split; [lia|].
        split; intros c; intros; (destruct (Nat.eq_dec c k) as [->|N]; [|rewrite OLD by lia]).
        * rewrite NEW. reflexivity.
        * apply C3; auto. lia.
        * congruence.
        * apply C4; auto. lia. }
  destruct B as (B1 & B2 & B3 & B4). split; auto. split; auto. split; auto.
  intros c t Hc. split; [auto|]. destruct (A3 c t Hc) as (tl & j & d & T). exists tl, j, d. exact T.
Qed.

Lemma mean2_of a b : (mean2 (fst a) (fst b), mean2 (snd a) (snd b)) = mean_of a b.
Proof. reflexivity. Qed.
Lemma in_bounds_plain tp d : pos3d_in_bounds tp d = true -> within_step_limits tp d.
Proof. destruct d as [[x y] z]. unfold pos3d_in_bounds, within_step_limits. rewrite !andb_true_iff. tauto. Qed.
Lemma in_volume_plain vl v : in_volume vl (vymin vl) (vymax vl) v = true -> inside_volume vl v.
Proof. destruct v as [[x y] z]. unfold in_volume, inside_volume. rewrite !andb_true_iff. tauto. Qed.
Lemma acceptable_plain tp a c : acceptable tp a c = true -> smooth_motion tp (a, c).
Proof. unfold acceptable, smooth_motion. cbn [fst snd]. rewrite orb_true_iff, andb_true_iff. auto. Qed.

(** the candidates collected so far satisfy [J] *)
Definition reasons (J : Z -> Prop) (p : pinfo) : Prop :=
  forall j v, Z.of_nat j < p_inlist p -> nth_error (p_link p) j = Some v -> J v.
Lemma reasons_mono (J K : Z -> Prop) p : (forall v, J v -> K v) -> reasons J p -> reasons K p.
Proof. unfold reasons. eauto. Qed.
Lemma register_reason J N p d v p' : cands_ok N p -> reasons J p -> J v ->
  register_link_candidate p d v = Ok p' -> reasons J p'.
Proof.
  intros (A & B & C & _) HR Hv H. unfold register_link_candidate in H.
  apply bind_ok in H as (dl & Hd & H). apply bind_ok in H as (ll & Hl & H). injection H as <-.
  apply pyset_ok in Hl as (Ll & ->); auto.
  intros j w Hj Hw. cbn [p_inlist p_link] in *. rewrite nth_error_upd in Hw.
  apply Nat.ltb_lt in Ll. rewrite Ll in Hw. destruct (Nat.eqb_spec j (Z.to_nat (p_inlist p))).
  - injection Hw as <-. auto.
  - apply (HR j w); auto. lia.
Qed.

(** linking keeps a particle's successor or erases it *)
Definition kept_next (cur cur' : list pinfo) : Prop :=
  forall h q, nth_error cur' h = Some q -> exists p, nth_error cur h = Some p /\ (q = p \/ q = set_next p NEXT_NONE).
Lemma kept_upd cur l i p l' : kept_next cur l -> pyget l i = Ok p -> pyset l i (set_next p NEXT_NONE) = Ok l' -> kept_next cur l'.
Proof.
  intros H G S h q Hq. unfold pyget in G. unfold pyset in S. destruct (pyidx (length l) i) as [k|]; [|discriminate].
  destruct (nth_error l k) as [x|] eqn:E; [|discriminate]. injection G as ->. injection S as <-.
  rewrite nth_error_upd in Hq. destruct (Nat.eqb_spec h k) as [->|]; auto.
  destruct (k <? length l)%nat; [|discriminate]. injection Hq as <-. destruct (H k p E) as (p0 & A & [->| ->]); exists p0; auto.
Qed.
Lemma link_all_keeps num cur nxt cur' nxt' cnt : link_all num cur nxt = Ok (cur', nxt', cnt) -> kept_next cur cur'.
Proof.
  intros H. unfold link_all in H.
  apply (foldM_inv (fun _ '(c, _, _) => kept_next cur c)) in H; [exact H| |].
  - intros h q Hq. exists q. auto.
  - intros done h rest [[c n] k] [[c' n'] k'] _ HI Hs. unfold link_one in Hs.
    apply bind_ok in Hs as (p & Hp & Hs). apply bind_ok in Hs as ([c2 n2] & Hcn & Hs). apply bind_ok in Hs as (p2 & _ & Hs).
    injection Hs as <- <- <-.
    destruct (p_inlist p >? 0); [|injection Hcn as <- <-; auto].
    apply bind_ok in Hcn as (r & Hr & Hcn). destruct (p_prev r =? PREV_NONE).
    { apply bind_ok in Hcn as (x & _ & Hcn). injection Hcn as <- <-. auto. }
    apply bind_ok in Hcn as (o & Ho & Hcn). destruct (fgt _ _).
    + apply bind_ok in Hcn as (x & Hx & Hcn). apply bind_ok in Hcn as (y & _ & Hcn). injection Hcn as <- <-. exact (kept_upd _ _ _ _ _ HI Ho Hx).
    + apply bind_ok in Hcn as (x & Hx & Hcn). injection Hcn as <- <-. exact (kept_upd _ _ _ _ _ HI Hp Hx).
Qed.

Section Decide.
Variable psort : list (f64 * Z) -> list (f64 * Z).
Hypothesis psort_perm : forall l, Permutation l (psort l).
Lemma decide_reason J N p p' : cands_ok N p -> reasons J p -> decide psort p = Ok p' -> 0 < p_inlist p -> J (p_next p').
Proof.
  intros (A & B & C & D) HR H Hi. unfold decide in H. rewrite Z.gtb_ltb in H.
  apply Z.ltb_lt in Hi. rewrite Hi in H. apply Z.ltb_lt in Hi.
  destruct (sort_links_ok psort psort_perm (p_inlist p) (p_decis p) (p_link p) ltac:(lia) ltac:(lia))
    as (a' & b' & E & L1 & L2 & EC & S1 & S2).
  rewrite E in H. cbn [bind fst snd] in H. apply bind_ok in H as (d & Hd & H). apply bind_ok in H as (l & Hl & H).
  injection H as <-. cbn [p_next].
  apply pyget_ok_iff in Hd; [|lia]; apply pyget_ok_iff in Hl; [|lia]; change (Z.to_nat 0) with O in *.
  assert (IN : In (d, l) (combine (firstn (Z.to_nat (p_inlist p)) (p_decis p)) (firstn (Z.to_nat (p_inlist p)) (p_link p)))).
  { eapply Permutation_in; [symmetry; apply psort_perm|]; rewrite <- EC;
     destruct a' as [|a0 a']; [discriminate|]; destruct b' as [|b0 b']; [discriminate|];
     destruct (Z.to_nat (p_inlist p)) eqn:En; [lia|]; simpl in Hd, Hl; injection Hd as ->; injection Hl as ->; left; reflexivity. }
  apply in_combine_r in IN; apply In_nth_error in IN as (j & Hj).
  assert (Lj : (j < length (firstn (Z.to_nat (p_inlist p)) (p_link p)))%nat) by (apply nth_error_Some; congruence).
  rewrite firstn_length in Lj; rewrite nth_error_firstn in Hj by lia. apply (HR j l); auto. lia.
Qed.
Lemma decide_all_reason N cur cur' : (forall h p, nth_error cur h = Some p -> cands_ok N p) ->
  decide_all psort (Z.of_nat (length cur)) cur = Ok cur' ->
  forall h q, nth_error cur' h = Some q -> exists p, nth_error cur h = Some p /\
    if 0 <? p_inlist p then forall J, reasons J p -> J (p_next q) else p_next q = p_next p.
Proof.
  intros HC H. unfold decide_all in H.
  apply (foldM_inv (fun done s => length s = length cur /\
    (forall h, (length done <= h)%nat -> nth_error s h = nth_error cur h) /\
    (forall h q, (h < length done)%nat -> nth_error s h = Some q -> exists p, nth_error cur h = Some p /\
      if 0 <? p_inlist p then forall J, reasons J p -> J (p_next q) else p_next q = p_next p))) in H.
  - destruct H as (L & _ & H). intros h q Hq. apply (H h q); auto. rewrite zrange_length.
    assert (h < length cur')%nat by (apply nth_error_Some; congruence). lia.
  - split; auto. split; auto. simpl. lia.
  - intros done h rest s s1 E (L & I1 & I2) Hs. apply zrange_split in E as (_ & Hh & Eh).
    replace h with (Z.of_nat (length done)) in * by lia.
    apply bind_ok in Hs as (p & Hp & Hs). apply pyget_ok_iff in Hp; [|lia]. apply bind_ok in Hs as (p' & Hp' & Hs).
    apply pyset_ok in Hs as (Ls & ->); [|lia]. rewrite Nat2Z.id in *.
    rewrite upd_length, app_length. cbn [length]. split; auto. split.
    + intros k Hk. rewrite nth_error_upd_neq by lia. apply I1. lia.
    + intros k q Hk Hq. destruct (Nat.eq_dec k (length done)) as [->|N'].
      * rewrite nth_error_upd_eq in Hq by auto. injection Hq as <-. rewrite I1 in Hp by lia. exists p. split; auto.
        destruct (Z.ltb_spec 0 (p_inlist p)) as [Hi|Hi].
        -- intros J HR. eapply decide_reason; eauto.
        -- unfold decide in Hp'. rewrite Z.gtb_ltb in Hp'. destruct (Z.ltb_spec 0 (p_inlist p)); [lia|]. congruence.
      * rewrite nth_error_upd_neq in Hq by auto. apply I2; auto. lia.
Qed.

(** the best candidate comes first *)
Definition best_first (le : f64 * Z -> f64 * Z -> Prop) (q : pinfo) : Prop :=
  exists d v, nth_error (p_decis q) 0 = Some d /\ nth_error (p_link q) 0 = Some v /\ p_final q = d /\
    (p_next q = v \/ p_next q = NEXT_NONE) /\
    ((forall j dj, Z.of_nat j < p_inlist q -> nth_error (p_decis q) j = Some dj -> is_nan dj = false) ->
    forall j dj vj, (0 < j)%nat -> Z.of_nat j < p_inlist q -> nth_error (p_decis q) j = Some dj -> nth_error (p_link q) j = Some vj ->
      le (d, v) (dj, vj)).
Definition sorts (le : f64 * Z -> f64 * Z -> Prop) : Prop :=
  forall l, (forall x, In x l -> is_nan (fst x) = false) -> StronglySorted le (psort l).
Lemma decide_best le N p p' : sorts le -> cands_ok N p -> decide psort p = Ok p' -> 0 < p_inlist p ->
  p_inlist p' = p_inlist p /\ best_first le p'.
Proof.
  intros HS (A & B & C & D) H Hi. unfold decide in H. rewrite Z.gtb_ltb in H.
  apply Z.ltb_lt in Hi. rewrite Hi in H. apply Z.ltb_lt in Hi.
  destruct (sort_links_ok psort psort_perm (p_inlist p) (p_decis p) (p_link p) ltac:(lia) ltac:(lia))
    as (a' & b' & E & L1 & L2 & EC & S1 & S2).
  rewrite E in H. cbn [bind fst snd] in H. apply bind_ok in H as (d & Hd & H). apply bind_ok in H as (l & Hl & H).
  injection H as <-. split; [reflexivity|].
  apply pyget_ok_iff in Hd; [|lia]; apply pyget_ok_iff in Hl; [|lia]; change (Z.to_nat 0) with O in *.
  exists d, l. cbn [p_decis p_link p_final p_next p_inlist]. split; auto. split; auto. split; auto. split; auto.
  intros NN j dj vj Hj Hjn Hdj Hvj.
  assert (SS : StronglySorted le (psort (combine (firstn (Z.to_nat (p_inlist p)) (p_decis p)) (firstn (Z.to_nat (p_inlist p)) (p_link p))))).
  { apply HS. intros [xd xv] Hx. eapply Permutation_in in Hx; [|apply psort_perm]. rewrite <- EC in Hx.
    apply in_combine_l in Hx. apply In_nth_error in Hx as (i & Hx).
    assert (Li : (i < length (firstn (Z.to_nat (p_inlist p)) a'))%nat) by (apply nth_error_Some; congruence).
    rewrite firstn_length in Li. rewrite nth_error_firstn in Hx by lia. cbn [fst]. apply (NN i xd); auto. lia. }
  rewrite <- EC in SS. destruct (Z.to_nat (p_inlist p)) as [|n] eqn:En; [lia|].
  destruct a' as [|a0 a']; [discriminate|]. destruct b' as [|b0 b']; [discriminate|].
  cbn in Hd, Hl. injection Hd as ->. injection Hl as ->. cbn [firstn combine] in SS. inversion SS as [|x y _ F]; subst.
  rewrite Forall_forall in F. apply F. destruct j as [|j]; [lia|]. cbn in Hdj, Hvj.
  assert (Lj : (j < n)%nat) by lia. clear -Hdj Hvj Lj. revert j n a' b' Hdj Hvj Lj.
  induction j as [|j IH]; intros [|n] [|x a] [|y b] H1 H2 L; try discriminate; try lia; cbn in *.
  - left. congruence.
  - right. apply IH; auto. lia.
Qed.
Lemma decide_all_best le N cur cur' : sorts le -> (forall h p, nth_error cur h = Some p -> cands_ok N p) ->
  decide_all psort (Z.of_nat (length cur)) cur = Ok cur' ->
  forall h q, nth_error cur' h = Some q -> 0 < p_inlist q -> best_first le q.
Proof.
  intros HS HC H. unfold decide_all in H.
  apply (foldM_inv (fun done s => length s = length cur /\
    (forall h, (length done <= h)%nat -> nth_error s h = nth_error cur h) /\
    (forall h q, (h < length done)%nat -> nth_error s h = Some q -> 0 < p_inlist q -> best_first le q))) in H.
  - destruct H as (L & _ & H). intros h q Hq. apply (H h q); auto. rewrite zrange_length.
    assert (h < length cur')%nat by (apply nth_error_Some; congruence). lia.
  - split; auto. split; auto. simpl. lia.
  - intros done h rest s s1 E (L & I1 & I2) Hs. apply zrange_split in E as (_ & Hh & Eh).
    replace h with (Z.of_nat (length done)) in * by lia.
    apply bind_ok in Hs as (p & Hp & Hs). apply pyget_ok_iff in Hp; [|lia]. apply bind_ok in Hs as (p' & Hp' & Hs).
    apply pyset_ok in Hs as (Ls & ->); [|lia]. rewrite Nat2Z.id in *.
    rewrite upd_length, app_length. cbn [length]. split; auto. split.
    + intros k Hk. rewrite nth_error_upd_neq by lia. apply I1. lia.
    + intros k q Hk Hq. destruct (Nat.eq_dec k (length done)) as [->|N'].
      * rewrite nth_error_upd_eq in Hq by auto. injection Hq as <-. rewrite I1 in Hp by lia. intros Hi.
        destruct (Z.ltb_spec 0 (p_inlist p)) as [Hi'|Hi'].
        -- eapply decide_best; eauto.
        -- unfold decide in Hp'. rewrite Z.gtb_ltb in Hp'. destruct (Z.ltb_spec 0 (p_inlist p)); [lia|]. injection Hp' as <-. lia.
      * rewrite nth_error_upd_neq in Hq by auto. apply (I2 k q); auto. lia.
Qed.
End Decide.

Section Just.
Variable psort : list (f64 * Z) -> list (f64 * Z).
Hypothesis psort_perm : forall l, Permutation l (psort l).
Variable pixdist : f64 -> f64 -> f64 -> f64 -> f64.
Variable ncam : nat.
Hypothesis ncam_ok : (1 <= ncam <= 4)%nat.
Variables imx imy : Z.
Variable point_to_pixel : Z -> vec -> f64 * f64.
Variable searchquader : Z -> vec -> f64 * f64 * f64 * f64.
Variable moving : vec -> vec -> vec.
Variable extrap : vec -> vec -> vec -> vec.
Variable vec_subt : vec -> vec -> vec.
Variable vec_diff_norm : vec -> vec -> f64.
Variable angle_acc : vec -> vec -> vec -> f64 * f64.
Variable to_flat : Z -> f64 -> f64 -> f64 * f64.
Variable point_position : list (f64 * f64) -> vec.
Variable tp : tpar.
Variable vl : vol.
Let nc := Z.of_nat ncam.
Local Notation second_loop := (second_loop vec_subt vec_diff_norm angle_acc tp vl).
Local Notation first_body := (first_body pixdist nc imx imy point_to_pixel searchquader moving extrap vec_subt vec_diff_norm angle_acc to_flat point_position tp vl).
Local Notation track_one := (track_one pixdist nc imx imy point_to_pixel searchquader moving extrap vec_subt vec_diff_norm angle_acc to_flat point_position tp vl).
Local Notation trackcorr_step := (trackcorr_step psort pixdist nc imx imy point_to_pixel searchquader moving extrap vec_subt vec_diff_norm angle_acc to_flat point_position tp vl).
Local Notation sight f := (sighting pixdist ncam imx imy point_to_pixel to_flat (fr_targ f)).

(** a frame grows by particles inside the volume that are seen by two cameras *)
Definition measured (f : frame) (x : vec) : Prop :=
  inside_volume vl x /\ exists centre n flats, sight f centre n flats /\ 2 <= n /\ x = point_position flats.
Definition grows (f g : frame) : Prop :=
  retagged (fr_targ f) (fr_targ g) /\ exists l, fr_path g = fr_path f ++ l /\ Forall (fun p => measured f (p_x p)) l.
Lemma grows_refl f : grows f f.
Proof. split; [apply retagged_refl|]. exists []. rewrite app_nil_r. auto. Qed.
Lemma measured_before f g x : retagged (fr_targ f) (fr_targ g) -> measured g x -> measured f x.
Proof. intros R (A & c & n & fl & B & C & D). split; auto. exists c, n, fl. split; auto. eapply sighting_before; eauto. Qed.
Lemma grows_trans f g h : grows f g -> grows g h -> grows f h.
Proof.
  intros (A & l & B & C) (A' & l' & B' & C'). split; [eapply retagged_trans; eauto|].
  exists (l ++ l'). rewrite B', B, app_assoc. split; auto. apply Forall_app. split; auto.
  eapply Forall_impl; [|exact C']. intros p Hp. eapply measured_before; eauto.
Qed.
Lemma add_grows f x n v2 inds g centre : frame_ok f -> sight f centre n v2 -> 2 <= n ->
  (forall c ix, 0 <= c < nc -> pyget inds c = Ok ix -> -1 <= ix) ->
  inside_volume vl x -> x = point_position v2 ->
  add_particle nc f x inds = Ok g -> grows f g.
Proof.
  intros F S Hn HX V -> H. split.
  - apply (add_particle_tags nc f (point_position v2) inds); auto; destruct F as (F & _); unfold nc; try lia.
  - assert (N0 : 0 <= nc) by (unfold nc; lia). destruct (add_particle_ok _ _ _ _ _ F N0 H) as (_ & ->). eexists. split; [reflexivity|].
    constructor; auto. cbn. split; auto. exists centre, n, v2. auto.
Qed.

(** the reason for candidate number [v], given the frame [f2], the frames at the
    start of the step (b2, b3) and the positions [later] *)
Definition why (b2 b3 f2 : frame) (later : list vec) (hp : bool) (x0 x1 x2 : vec) (v : Z) : Prop :=
  exists q, nth_error (fr_path f2) (Z.to_nat v) = Some q /\
    justified vec_subt angle_acc point_position tp vl (sight b2) (sight b3) later hp x1 x2 (p_x q)
      (if hp then extrap (p_x q) x1 x0 else moving x1 (p_x q)).
Lemma just_more s2 s3 later later' hp x1 x2 x3 x5 : (forall x, In x later -> In x later') ->
  justified vec_subt angle_acc point_position tp vl s2 s3 later hp x1 x2 x3 x5 ->
  justified vec_subt angle_acc point_position tp vl s2 s3 later' hp x1 x2 x3 x5.
Proof. intros H J. destruct J; [eapply continued|eapply reappears|eapply direct|eapply filled_in]; eauto. Qed.
Lemma why_more b2 b3 f2 g2 later later' hp x0 x1 x2 v : (exists l, fr_path g2 = fr_path f2 ++ l) ->
  (forall x, In x later -> In x later') ->
  why b2 b3 f2 later hp x0 x1 x2 v -> why b2 b3 g2 later' hp x0 x1 x2 v.
Proof.
  intros (l & E) H (q & A & B). exists q. split; [|eapply just_more; eauto].
  rewrite E, nth_error_app1; auto. apply nth_error_Some. congruence.
Qed.
Definition xs (f : frame) : list vec := map p_x (fr_path f).
Lemma grows_xs f g x : grows f g -> In x (xs f) -> In x (xs g).
Proof. intros (_ & l & E & _) H. unfold xs. rewrite E, map_app. apply in_or_app. auto. Qed.
Lemma grows_path f g : grows f g -> exists l, fr_path g = fr_path f ++ l.
Proof. intros (_ & l & E & _). eauto. Qed.

Lemma second_loop_why N wn f b2 b3 buf2 buf3 x0 x1 x2 x3 hp p p' q :
  (forall g, In g wn -> -1 <= ftnr g) ->
  nth_error (fr_path buf2) (Z.to_nat (ftnr f)) = Some q -> x3 = p_x q ->
  cands_ok N p -> 0 <= ftnr f < N ->
  reasons (why b2 b3 buf2 (xs buf3) hp x0 x1 x2) p ->
  second_loop wn f buf3 x1 x2 x3 (if hp then extrap x3 x1 x0 else moving x1 x3) hp p = Ok p' ->
  reasons (why b2 b3 buf2 (xs buf3) hp x0 x1 x2) p'.
Proof.
  intros HW Hq -> HC Hf HR H. unfold Model_track.second_loop in H.
  set (x5 := if hp then extrap (p_x q) x1 x0 else moving x1 (p_x q)) in *.
  apply (while_inv (fun p => cands_ok N p /\ reasons (why b2 b3 buf2 (xs buf3) hp x0 x1 x2) p)) in H; [apply H|auto|].
  intros g s s1 Hg Hgo (S1 & S2) Hs. apply bind_ok in Hs as (r & Hr & Hs).
  apply andb_true_iff in Hgo as (G1 & G2). apply negb_true_iff, Z.eqb_neq in G1. unfold TR_UNUSED in G1.
  specialize (HW g Hg). apply pyget_ok_iff in Hr; [|lia].
  destruct (pos3d_in_bounds tp _) eqn:Eb; [|injection Hs as <-; auto].
  destruct (angle_acc (p_x q) (p_x r) x5) as [a1 c1] eqn:E1.
  destruct (if hp then angle_acc x1 x2 (p_x q) else (a1, c1)) as [a0 c0] eqn:E0.
  destruct (acceptable tp _ _) eqn:Ea; [|injection Hs as <-; auto].
  pose proof Hs as Hs'. apply (register_link_ok N) in Hs' as (A & B); auto. split; auto.
  apply (register_reason _ N _ _ _ _ S1 S2) in Hs; auto.
  exists q. split; auto. fold x5. apply (continued _ _ _ _ _ _ _ _ _ _ _ _ _ (p_x r)).
  - unfold xs. apply in_map. eapply nth_error_In; eauto.
  - now apply in_bounds_plain.
  - apply acceptable_plain in Ea. rewrite E1. replace (if hp then angle_acc x1 x2 (p_x q) else (a1, c1)) with (a0, c0) by (symmetry; exact E0). exact Ea.
Qed.

(** [o2], [o3]: the frames at the start of the step; [b2], [b3]: when the particle's turn starts *)
Definition SJ (o2 o3 b2 b3 : frame) (hp : bool) (x0 x1 x2 : vec) (s : pinfo * frame * frame) : Prop :=
  let '(p, buf2, buf3) := s in
  grows b3 buf3 /\ hp = (0 <=? p_prev p) /\ reasons (why o2 o3 b2 (xs buf3) hp x0 x1 x2) p.

Lemma first_body_why p0 o2 o3 b2 b3 hp x0 x1 x2 f s s' : 0 <= ftnr f < Z.of_nat (length (fr_path b2)) ->
  retagged (fr_targ o3) (fr_targ b3) ->
  SI p0 b2 b3 s -> SJ o2 o3 b2 b3 hp x0 x1 x2 s -> first_body x0 x1 x2 f s = Ok s' -> SJ o2 o3 b2 b3 hp x0 x1 x2 s'.
Proof.
  destruct s as [[p buf2] buf3]. intros Hf RT (S1 & S2 & -> & S4 & S5) (J1 & J2 & J3) H. unfold Model_track.first_body in H.
  rewrite <- J2 in H.
  apply bind_ok in H as (q & Hq & H). apply pyget_ok_iff in Hq; [|lia].
  set (x5 := if hp then extrap (p_x q) x1 x0 else moving x1 (p_x q)) in *.
  apply bind_ok in H as (wn & Hwn & H). apply bind_ok in H as (p1 & Hp1 & H).
  set (N := Z.of_nat (length (fr_path b2))) in *.
  assert (G1 : same_core p p1 /\ cands_ok N p1 /\ reasons (why o2 o3 b2 (xs buf3) hp x0 x1 x2) p1).
  { destruct (_ >? 1); [|injection Hp1 as <-; auto using same_core_refl].
    pose proof Hp1 as Hp1'. apply (second_loop_ok vec_subt vec_diff_norm angle_acc tp vl N) in Hp1' as (A & B); auto.
    split; auto. split; auto. eapply (second_loop_why N wn f o2 o3 b2 buf3 x0 x1 x2 _ hp p p1 q); eauto.
    intros g Hg. eapply (volume_ids pixdist ncam ncam_ok imx imy searchquader); eauto. }
  clear Hp1. destruct G1 as (G0 & G1 & G2).
  apply bind_ok in H as ([[quali v2] philf] & Has & H). apply assess_sighting in Has as (SG & IX).
  apply bind_ok in H as ([p2 b3'] & Hp2 & H).
  assert (G3 : same_core p p2 /\ cands_ok N p2 /\ frame_ok b3' /\ grows buf3 b3' /\ reasons (why o2 o3 b2 (xs b3') hp x0 x1 x2) p2).
  { assert (SAME : same_core p p1 /\ cands_ok N p1 /\ frame_ok buf3 /\ grows buf3 buf3 /\ reasons (why o2 o3 b2 (xs buf3) hp x0 x1 x2) p1) by auto using grows_refl.
    destruct (Z.leb_spec 2 quali) as [Q2|_]; [|injection Hp2 as <- <-; exact SAME].
    destruct (in_volume _ _ _ _ && _) eqn:Ev; [|injection Hp2 as <- <-; exact SAME].
    apply andb_true_iff in Ev as (Ev & Eb). apply in_volume_plain in Ev. apply in_bounds_plain in Eb.
    destruct (angle_acc _ _ _) as [an ac] eqn:Ea. destruct (acceptable tp an ac) eqn:Eac; [|injection Hp2 as <- <-; exact SAME].
    apply acceptable_plain in Eac. rewrite <- Ea in Eac.
    apply bind_ok in Hp2 as (p3 & Hp3 & Hp2). pose proof Hp3 as Hp3'.
    apply (register_link_ok N) in Hp3' as (A & B); auto.
    assert (SC : same_core p p3) by (eapply same_core_trans; eauto).
    apply (register_reason _ N _ _ _ _ G1 G2) in Hp3.
    2:{ exists q. split; auto. fold x5. apply (reappears _ _ _ _ _ _ _ _ _ _ _ _ _ quali v2); auto.
        eapply sighting_before; [|exact SG]. eapply retagged_trans; [exact RT|]. apply J1. }
    destruct (do_add tp); [|injection Hp2 as <- <-; auto using grows_refl].
    apply bind_ok in Hp2 as (b4 & Hb4 & Hp2). injection Hp2 as <- <-.
    assert (N0 : 0 <= nc) by (unfold nc; lia).
    assert (GR : grows buf3 b4) by (eapply add_grows; eauto).
    apply add_particle_ok in Hb4 as (C & D); auto. split; auto. split; auto. split; auto. split; auto.
    eapply reasons_mono; [|exact Hp3]. intros v. apply why_more; [exists []; now rewrite app_nil_r|].
    intros x. now apply grows_xs. }
  clear Hp2. destruct G3 as (G3 & G4 & G5 & G6 & G7).
  apply bind_ok in H as (p4 & Hp4 & H). injection H as <-.
  assert (G8 : same_core p p4 /\ reasons (why o2 o3 b2 (xs b3') hp x0 x1 x2) p4).
  { destruct (_ && _) eqn:Eh; [|injection Hp4 as <-; auto]. apply andb_true_iff in Eh as (_ & Eh).
    destruct (pos3d_in_bounds tp _) eqn:Eb; [|injection Hp4 as <-; auto]. apply in_bounds_plain in Eb.
    destruct (angle_acc _ _ _) as [an ac] eqn:Ea. destruct (acceptable tp an ac) eqn:Eac; [|injection Hp4 as <-; auto].
    apply acceptable_plain in Eac. rewrite <- Ea in Eac. pose proof Hp4 as Hp4'.
    apply (register_link_ok N) in Hp4' as (A & B); auto. split; [eapply same_core_trans; eauto|].
    apply (register_reason _ N _ _ _ _ G4 G7) in Hp4; auto. exists q. split; auto. apply direct; auto. }
  destruct G8 as ((_ & G8 & _) & G9). split; [eapply grows_trans; eauto|]. split; [congruence|exact G9].
Qed.

(** the previous and the expected position of a particle at the start of its turn *)
Definition history (buf0 : frame) (p : pinfo) (hp : bool) (x0 x2 : vec) : Prop :=
  hp = (0 <=? p_prev p) /\
  (hp = true -> exists q0, nth_error (fr_path buf0) (Z.to_nat (p_prev p)) = Some q0 /\ x0 = p_x q0 /\ x2 = moving x0 (p_x p)) /\
  (hp = false -> x2 = p_x p).
Definition explained (buf0 o2 o3 f2 f3 : frame) (p q : pinfo) : Prop :=
  exists hp x0 x2, history buf0 p hp x0 x2 /\ reasons (why o2 o3 f2 (xs f3) hp x0 (p_x p) x2) q.
Lemma explained_more buf0 o2 o3 f2 f3 g2 g3 p p' q : grows f2 g2 -> grows f3 g3 -> same_core p' p ->
  explained buf0 o2 o3 f2 f3 p q -> explained buf0 o2 o3 g2 g3 p' q.
Proof.
  intros H2 H3 (C1 & C2 & _) (hp & x0 & x2 & (A1 & A2 & A3) & B). exists hp, x0, x2. split.
  - unfold history. rewrite <- C1, <- C2. auto.
  - rewrite <- C1. eapply reasons_mono; [|exact B]. intros v. apply why_more; [now apply grows_path|]. intros x. now apply grows_xs.
Qed.

Lemma track_one_why buf0 o2 o3 b1 b2 b3 h b1' b2' b3' : 0 <= h -> frame_ok b2 -> frame_ok b3 ->
  retagged (fr_targ o2) (fr_targ b2) -> retagged (fr_targ o3) (fr_targ b3) ->
  track_one buf0 (b1, b2, b3) h = Ok (b1', b2', b3') ->
  grows b2 b2' /\ grows b3 b3' /\
  exists p q, nth_error (fr_path b1) (Z.to_nat h) = Some p /\ fr_path b1' = upd (fr_path b1) (Z.to_nat h) q /\
    explained buf0 o2 o3 b2' b3' p q.
Proof.
  intros Hh F2 F3 R2 R3 H. unfold Model_track.track_one in H.
  apply bind_ok in H as (p & Hp & H). apply pyget_ok_iff in Hp; auto.
  apply bind_ok in H as (c & _ & H). apply bind_ok in H as ([[x0 x2] v1] & Hpre & H).
  apply bind_ok in H as (w & Hw & H). apply bind_ok in H as ([[p' b2x] b3x] & Hs & H).
  apply bind_ok in H as (path & Hpath & H). injection H as <- <- <-.
  apply pyset_ok in Hpath as (Lh & ->); auto. cbn [set_path fr_path].
  change (p_prev (reset_inlist p)) with (p_prev p) in *. change (p_x (reset_inlist p)) with (p_x p) in *.
  set (hp := 0 <=? p_prev p) in *.
  assert (HY : history buf0 p hp x0 x2).
  { split; auto. destruct hp eqn:Ehp.
    - split; [intros _|discriminate]. apply bind_ok in Hpre as (q0 & Hq0 & Hpre). injection Hpre as <- <- <-.
      apply pyget_ok_iff in Hq0; [|unfold hp in Ehp; lia]. eauto.
    - split; [discriminate|intros _]. apply bind_ok in Hpre as (v & _ & Hpre). injection Hpre as <- <- <-. auto. }
  clear Hpre.
  assert (G : grows b2 b2x /\ grows b3 b3x /\ reasons (why o2 o3 b2x (xs b3x) hp x0 (p_x p) x2) p').
  { set (rp := reset_inlist p) in *. assert (C0 : same_core p rp) by (repeat split).
    assert (K0 : forall N, cands_ok N rp).
    { intros N. unfold rp, cands_ok, reset_inlist. cbn [p_inlist p_decis p_link]. repeat split; try lia. }
    assert (Z0 : forall J, reasons J rp) by (intros J j v Hj; cbn [rp reset_inlist p_inlist] in Hj; lia).
    destruct (_ =? 1).
    { injection Hs as <- <- <-. auto using grows_refl. }
    apply bind_ok in Hs as ([[p1 b21] b31] & Hwh & Hs).
    apply (while_inv (fun s => SI p b2 b3 s /\ SJ o2 o3 b2 b3 hp x0 (p_x p) x2 s)) in Hwh.
    2:{ split; [split; [auto|]; split; [auto|]; split; [auto|]; split; [auto|apply only_added_refl]|].
        split; [apply grows_refl|]. split; auto. }
    2:{ intros f s s1 Hf Hgo (HSI & HSJ) Hb. destruct s as [[ps bs2] bs3].
        pose proof HSI as (_ & _ & Eb & _). rewrite Eb in Hgo.
        apply andb_true_iff in Hgo as (G1 & G2). apply negb_true_iff, Z.eqb_neq in G1. rewrite Z.gtb_ltb in G2. apply Z.ltb_lt in G2.
        pose proof (volume_ids pixdist ncam ncam_ok imx imy searchquader _ _ _ _ f F2 Hw Hf). unfold TR_UNUSED in G1.
        assert (HF : 0 <= ftnr f < Z.of_nat (length (fr_path b2))) by lia.
        split; [eapply first_body_ok; eauto|eapply first_body_why; eauto]. }
    destruct Hwh as ((S1 & S2 & -> & S4 & S5) & (J1 & J2 & J3)).
    assert (BASE : grows b2 b2 /\ grows b3 b31 /\ reasons (why o2 o3 b2 (xs b31) hp x0 (p_x p) x2) p1) by auto using grows_refl.
    destruct (_ && _) eqn:Ead; [|injection Hs as <- <- <-; exact BASE].
    apply andb_true_iff in Ead as (Ead & Ehp). apply andb_true_iff in Ead as (Ead & _).
    apply bind_ok in Hs as ([[quali v2] philf] & Has & Hs). apply assess_sighting in Has as (SG & IX).
    destruct (Z.leb_spec 2 quali) as [Q2|_]; [|injection Hs as <- <- <-; exact BASE].
    destruct (in_volume _ _ _ _ && _) eqn:Ev; [|injection Hs as <- <- <-; exact BASE].
    apply andb_true_iff in Ev as (Ev & Eb). apply in_volume_plain in Ev. apply in_bounds_plain in Eb.
    destruct (angle_acc _ _ _) as [an ac] eqn:Ea. destruct (acceptable tp an ac) eqn:Eac; [|injection Hs as <- <- <-; exact BASE].
    apply acceptable_plain in Eac. rewrite <- Ea in Eac.
    apply bind_ok in Hs as (p2 & Hp2 & Hs). apply bind_ok in Hs as (b22 & Hb & Hs). injection Hs as <- <- <-.
    assert (N0 : 0 <= nc) by (unfold nc; lia).
    assert (GR : grows b2 b22) by (eapply add_grows; eauto).
    apply add_particle_ok in Hb as (A & B); auto.
    split; auto. split; auto.
    eapply register_reason; [exact S2| | |exact Hp2].
    - eapply reasons_mono; [|exact J3]. intros v. apply why_more; [now apply grows_path|auto].
    - exists (new_pinfo (point_position v2)). split.
      + destruct F2 as (FN & _). rewrite FN, Nat2Z.id, B, nth_error_app2, Nat.sub_diag by lia. reflexivity.
      + apply (filled_in _ _ _ _ _ _ _ _ _ _ _ _ _ quali v2); auto. eapply sighting_before; eauto. }
  destruct G as (G1 & G2 & G3). split; auto. split; auto.
  exists p, p'. split; auto. split; auto. exists hp, x0, x2. auto.
Qed.

Definition TJ (buf0 b1 b2 b3 : frame) (m : nat) (st : frame * frame * frame) : Prop :=
  let '(c1, c2, c3) := st in
  grows b2 c2 /\ grows b3 c3 /\
  forall h p, nth_error (fr_path b1) h = Some p -> exists q, nth_error (fr_path c1) h = Some q /\
    ((h < m)%nat -> explained buf0 b2 b3 c2 c3 p q).

Lemma track_all_why buf0 b1 b2 b3 st : frame_ok b1 -> frame_ok b2 -> frame_ok b3 ->
  foldM (track_one buf0) (zrange 0 (fr_num b1)) (b1, b2, b3) = Ok st -> TJ buf0 b1 b2 b3 (length (fr_path b1)) st.
Proof.
  intros (F1 & _) F2 F3 H.
  apply (foldM_inv (fun done st => TI b1 b2 b3 (length done) st /\ TJ buf0 b1 b2 b3 (length done) st)) in H.
  - rewrite zrange_length in H. replace (Z.to_nat (fr_num b1 - 0)) with (length (fr_path b1)) in H by lia. apply H.
  - split.
    + split; auto. split; auto. split; [apply only_added_refl|]. split; [apply only_added_refl|]. split; auto. split; auto. split; auto.
      intros h p Hp. exists p. split; auto. split; [apply same_core_refl|]. simpl. lia.
    + split; [apply grows_refl|]. split; [apply grows_refl|]. intros h p Hp. exists p. split; auto. simpl. lia.
  - intros done h rest [[c1 c2] c3] [[d1 d2] d3] E ((A1 & A2 & A3 & A4 & A5 & A6 & A7 & A8) & (W1 & W2 & W3)) Hs.
    apply zrange_split in E as (_ & Hh & Eh). replace h with (Z.of_nat (length done)) in * by lia.
    pose proof Hs as Hw.
    apply track_one_ok in Hs as (B1 & B2 & B3 & B4 & B5 & B6 & (p & q & Hp & Hq & Sc & Co)); auto; try lia.
    apply (track_one_why buf0 b2 b3) in Hw as (V1 & V2 & (p' & q' & Hp' & Hq' & V3)); auto; try lia; [|apply W1|apply W2].
    rewrite Nat2Z.id in *. assert (p' = p) as -> by congruence.
    assert (LD : (length done < length (fr_path c1))%nat) by (apply nth_error_Some; congruence).
    assert (q' = q) as ->.
    { assert (X : nth_error (fr_path d1) (length done) = Some q) by (rewrite Hq; now apply nth_error_upd_eq).
      rewrite Hq', nth_error_upd_eq in X by auto. congruence. }
    rewrite app_length. cbn [length]. split.
    + split; auto. split; auto. split; [eapply only_added_trans; eauto|]. split; [eapply only_added_trans; eauto|].
      split; [rewrite Hq, upd_length; auto|]. split; [congruence|]. split; [congruence|].
      intros h' p' Hp''. destruct (A8 h' p' Hp'') as (q' & Q1 & Q2 & Q3). rewrite Hq.
      destruct (Nat.eq_dec h' (length done)) as [->|N].
      * exists q. rewrite nth_error_upd_eq by auto. split; auto.
        assert (q' = p) as -> by congruence. split; [eapply same_core_trans; eauto|]. auto.
      * exists q'. rewrite nth_error_upd_neq by auto. split; auto. split; auto. intros L.
        eapply cands_ok_mono; [|apply Q3; lia]. destruct B3 as (l & -> & _). rewrite app_length. lia.
    + split; [eapply grows_trans; eauto|]. split; [eapply grows_trans; eauto|].
      intros h' p' Hp''. destruct (W3 h' p' Hp'') as (r & Q1 & Q3). rewrite Hq.
      destruct (Nat.eq_dec h' (length done)) as [->|N].
      * exists q. rewrite nth_error_upd_eq by auto. split; auto. intros _.
        destruct (A8 _ _ Hp'') as (q' & Q1' & Q2' & _). assert (q' = p) as -> by congruence.
        eapply explained_more; [apply grows_refl|apply grows_refl|exact Q2'|exact V3].
      * exists r. rewrite nth_error_upd_neq by auto. split; auto. intros L.
        eapply explained_more; [exact V1|exact V2|apply same_core_refl|]. apply Q3. lia.
Qed.

Theorem step_justified buf0 b1 b2 b3 c1 c2 c3 cnt :
  frame_ok b1 -> frame_ok b2 -> frame_ok b3 ->
  (forall p, In p (fr_path b1) -> p_next p = NEXT_NONE) ->
  (forall p, In p (fr_path b2) -> fresh_particle p) ->
  trackcorr_step buf0 b1 b2 b3 = Ok (c1, c2, c3, cnt) ->
  (forall h k, next_of (fr_path c1) h = Z.of_nat k ->
     exists p q hp x0 x2, nth_error (fr_path b1) h = Some p /\ nth_error (fr_path c2) k = Some q /\
       history buf0 p hp x0 x2 /\
       justified vec_subt angle_acc point_position tp vl (sight b2) (sight b3) (xs c3) hp (p_x p) x2 (p_x q)
         (if hp then extrap (p_x q) (p_x p) x0 else moving (p_x p) (p_x q))) /\
  (exists l, xs c2 = xs b2 ++ l /\ Forall (measured b2) l) /\
  (exists l, xs c3 = xs b3 ++ l /\ Forall (measured b3) l) /\
  (forall le, sorts psort le ->
     forall h q, nth_error (fr_path c1) h = Some q -> 0 < p_inlist q -> best_first le q).
Proof.
  intros F1 F2 F3 N1 N2 H.
  pose proof H as HL. eapply trackcorr_step_links in HL; eauto.
  destruct HL as (MU & LE & KEEP & _ & _ & _ & _ & FC2 & _).
  unfold Model_track.trackcorr_step in H.
  apply bind_ok in H as ([[d1 d2] d3] & Ht & H).
  pose proof Ht as Ht'. apply track_all_why in Ht' as (W1 & W2 & W3); auto.
  apply track_all_ok in Ht as (A1 & A2 & A3 & A4 & A5 & A6 & A7 & A8); auto.
  apply bind_ok in H as (cur & Hd & H). apply bind_ok in H as ([[cur' nxt'] cnt'] & Hl & H). injection H as <- <- <- <-.
  pose proof F1 as (FN & FT). rewrite A6, FN, <- A5 in Hd, Hl.
  assert (LINK : forall h p, nth_error (fr_path d1) h = Some p -> cands_ok (Z.of_nat (length (fr_path d2))) p).
  { intros h p Hp. assert (h < length (fr_path d1))%nat by (apply nth_error_Some; congruence).
    destruct (nth_error (fr_path b1) h) as [p0|] eqn:E0; [|apply nth_error_None in E0; lia].
    destruct (A8 h p0 E0) as (q & Q1 & Q2 & Q3). assert (q = p) as -> by congruence. apply Q3; lia. }
  assert (XS : map p_x nxt' = map p_x (fr_path d2)).
  { assert (RW : ready_weak cur (fr_path d2)).
    { pose proof Hd as Hd'. apply (decide_all_ok psort psort_perm ncam ncam_ok (Z.of_nat (length (fr_path d2)))) in Hd' as (D1 & D2); auto.
      split.
      - intros h q Hq. assert (h < length cur)%nat by (apply nth_error_Some; congruence).
        destruct (nth_error (fr_path d1) h) as [p|] eqn:E; [|apply nth_error_None in E; lia].
        destruct (D2 h p E) as (q' & Q1 & Q2 & Q3 & Q4 & Q5). assert (q' = q) as -> by congruence. rewrite Q2.
        destruct (0 <? p_inlist p); auto. subst q.
        destruct (nth_error (fr_path b1) h) as [p0|] eqn:E0; [|apply nth_error_None in E0; lia].
        destruct (A8 h p0 E0) as (q & Q1' & (_ & _ & Q2' & _) & Q3'). assert (q = p) as -> by congruence. rewrite Q2'. apply N1. eapply nth_error_In; eauto.
      - intros k r Hr. destruct A3 as (l & El & Fl). apply nth_error_In in Hr. rewrite El in Hr.
        apply in_app_or in Hr as [Hr|Hr]; [now apply N2|]. rewrite Forall_forall in Fl. now apply Fl. }
    destruct (link_mutual cur (fr_path d2) RW) as (cur2 & nxt2 & cnt2 & E & L1 & L2 & M & S1 & S2).
    assert (LC : length cur = length (fr_path d1)).
    { apply (decide_all_ok psort psort_perm ncam ncam_ok (Z.of_nat (length (fr_path d2)))) in Hd as (D1 & D2); auto. }
    rewrite LC in E. rewrite E in Hl. injection Hl as <- <- <-.
    apply nth_error_ext. intros k. rewrite !nth_error_map. destruct (nth_error (fr_path d2) k) as [r|] eqn:Er.
    - destruct (S2 k r Er) as (s & -> & (v & ->)). reflexivity.
    - assert (nth_error nxt2 k = None) as -> by (apply nth_error_None; apply nth_error_None in Er; lia). reflexivity. }
  unfold xs. cbn [set_path fr_path] in *. split; [|split; [|split]].
  - intros h k Hk. unfold next_of in Hk. destruct (nth_error cur' h) as [q|] eqn:Eq; [|unfold NEXT_NONE in Hk; lia].
    destruct (link_all_keeps _ _ _ _ _ _ Hl h q Eq) as (q1 & Q1 & Q2).
    destruct (decide_all_reason psort psort_perm _ _ _ LINK Hd h q1 Q1) as (p1 & P1 & P2).
    assert (Lh : (h < length (fr_path d1))%nat) by (apply nth_error_Some; congruence).
    destruct (nth_error (fr_path b1) h) as [p|] eqn:Ep; [|apply nth_error_None in Ep; lia].
    destruct (A8 h p Ep) as (p1' & P1' & (_ & _ & CN) & _). assert (p1' = p1) as -> by congruence.
    destruct (0 <? p_inlist p1).
    2:{ exfalso. rewrite (N1 p) in CN by (eapply nth_error_In; eauto). destruct Q2 as [->| ->]; cbn [set_next p_next] in Hk; unfold NEXT_NONE in *; lia. }
    destruct (W3 h p Ep) as (p1'' & P1'' & EX). assert (p1'' = p1) as -> by congruence.
    destruct (EX ltac:(apply nth_error_Some; congruence)) as (hp & x0 & x2 & HY & RE).
    destruct (P2 _ RE) as (r & R1 & R2).
    assert (NK : p_next q1 = Z.of_nat k) by (destruct Q2 as [->| ->]; cbn [set_next p_next] in Hk; unfold NEXT_NONE in *; lia).
    rewrite NK, Nat2Z.id in R1.
    assert (RX : exists r', nth_error nxt' k = Some r' /\ p_x r' = p_x r).
    { assert (X : nth_error (map p_x nxt') k = Some (p_x r)) by (rewrite XS, nth_error_map, R1; reflexivity).
      rewrite nth_error_map in X. destruct (nth_error nxt' k) as [r'|]; [|discriminate]. cbn in X. injection X as X. eauto. }
    destruct RX as (r' & RX1 & RX2). exists p, r', hp, x0, x2. rewrite RX2. auto.
  - rewrite XS. destruct W1 as (_ & l & E & Fl). exists (map p_x l). rewrite E, map_app. split; auto.
    apply Forall_forall. intros x Hx. apply in_map_iff in Hx as (y & <- & Hy). rewrite Forall_forall in Fl. auto.
  - destruct W2 as (_ & l & E & Fl). exists (map p_x l). rewrite E, map_app. split; auto.
    apply Forall_forall. intros x Hx. apply in_map_iff in Hx as (y & <- & Hy). rewrite Forall_forall in Fl. auto.
  - intros le HS h q Hq Hi. destruct (link_all_keeps _ _ _ _ _ _ Hl h q Hq) as (q1 & Q1 & Q2).
    assert (Hi1 : 0 < p_inlist q1) by (destruct Q2 as [->| ->]; auto).
    destruct (decide_all_best psort psort_perm le _ _ _ HS LINK Hd h q1 Q1 Hi1) as (d & v & B1 & B2 & B3 & B4 & B5).
    destruct Q2 as [->| ->]; exists d, v; cbn [set_next p_decis p_link p_final p_next p_inlist]; split; auto; split; auto; split; auto.
Qed.

(** the outcome of the link decisions of a whole step, read off its result *)
Theorem step_winners buf0 b1 b2 b3 c1 c2 c3 cnt :
  frame_ok b1 -> frame_ok b2 -> frame_ok b3 ->
  (forall p, In p (fr_path b1) -> p_next p = NEXT_NONE) ->
  (forall p, In p (fr_path b2) -> fresh_particle p) ->
  trackcorr_step buf0 b1 b2 b3 = Ok (c1, c2, c3, cnt) ->
  (forall p, In p (fr_path c1) -> 0 < p_inlist p -> is_nan (p_final p) = false) ->
  (forall h k, next_of (fr_path c1) h = Z.of_nat k <-> chose_best (fr_path c1) h k) /\
  (forall h, (forall k, ~ chose_best (fr_path c1) h k) -> next_of (fr_path c1) h = NEXT_NONE) /\
  (forall h k, chose (fr_path c1) h k -> (k < length (fr_path c2))%nat /\ exists w, chose_best (fr_path c1) w k) /\
  (exists l, NoDup l /\ (forall h, In h l <-> exists k, chose_first (fr_path c1) h k) /\ cnt = Z.of_nat (length l)).
Proof.
  intros F1 F2 F3 N1 N2 H HNaN. unfold Model_track.trackcorr_step in H.
  apply bind_ok in H as ([[d1 d2] d3] & Ht & H).
  apply track_all_ok in Ht as (A1 & A2 & A3 & A4 & A5 & A6 & A7 & A8); auto.
  apply bind_ok in H as (cur & Hd & H). apply bind_ok in H as ([[cur' nxt'] cnt'] & Hl & H). injection H as <- <- <- <-.
  pose proof F1 as (FN & FT). rewrite A6, FN, <- A5 in Hd, Hl.
  assert (LINK : forall h p, nth_error (fr_path d1) h = Some p -> cands_ok (Z.of_nat (length (fr_path d2))) p).
  { intros h p Hp. assert (h < length (fr_path d1))%nat by (apply nth_error_Some; congruence).
    destruct (nth_error (fr_path b1) h) as [p0|] eqn:E0; [|apply nth_error_None in E0; lia].
    destruct (A8 h p0 E0) as (q & Q1 & Q2 & Q3). assert (q = p) as -> by congruence. apply Q3; lia. }
  pose proof Hd as Hd'. apply (decide_all_ok psort psort_perm ncam ncam_ok (Z.of_nat (length (fr_path d2)))) in Hd' as (D1 & D2); auto.
  assert (RD : forall h q, nth_error cur h = Some q -> if 0 <? p_inlist q then 0 <= p_next q < Z.of_nat (length (fr_path d2)) else p_next q = NEXT_NONE).
  { intros h q Hq. assert (h < length cur)%nat by (apply nth_error_Some; congruence).
    destruct (nth_error (fr_path d1) h) as [p|] eqn:E; [|apply nth_error_None in E; lia].
    destruct (D2 h p E) as (q' & Q1 & Q2 & Q3 & Q4 & Q5). assert (q' = q) as -> by congruence. rewrite Q2.
    destruct (0 <? p_inlist p); auto. subst q.
    destruct (nth_error (fr_path b1) h) as [p0|] eqn:E0; [|apply nth_error_None in E0; lia].
    destruct (A8 h p0 E0) as (q & Q1' & (_ & _ & Q2' & _) & Q3'). assert (q = p) as -> by congruence. rewrite Q2'. apply N1. eapply nth_error_In; eauto. }
  cbn [set_path fr_path] in *.
  pose proof (link_all_keeps _ _ _ _ _ _ Hl) as HK.
  assert (RP : forall k r, nth_error (fr_path d2) k = Some r -> p_prev r = PREV_NONE).
  { intros k r Hr. destruct A3 as (l & El & Fl). apply nth_error_In in Hr. rewrite El in Hr.
    apply in_app_or in Hr as [Hr|Hr]; [now apply N2|]. rewrite Forall_forall in Fl. now apply Fl. }
  assert (RW : ready_weak cur (fr_path d2)) by (split; [exact RD|exact RP]).
  destruct (link_mutual cur (fr_path d2) RW) as (cur2 & nxt2 & cnt2 & E & L1 & L2 & M & S1 & S2).
  rewrite D1 in E. rewrite E in Hl. injection Hl as -> -> ->.
  assert (R : ready cur (fr_path d2)).
  { split; [|exact RP]. intros h p Hp. pose proof (RD h p Hp) as X. destruct (0 <? p_inlist p) eqn:Ei; [|exact X]. split; [exact X|].
    destruct (S1 h p Hp) as (q & Hq & (v & ->)). apply (HNaN (set_next p v)); [eapply nth_error_In; exact Hq|]. cbn [set_next p_inlist]. lia. }
  destruct (link_exact cur (fr_path d2) R) as (cur3 & nxt3 & cnt3 & E3 & _ & _ & _ & G1 & G2 & _ & G3 & _ & _ & (l & G4 & G5 & G6)).
  rewrite D1 in E3. rewrite E3 in E. injection E as -> -> ->.
  assert (CW : forall h k, chose cur' h k <-> wants cur h k).
  { assert (HS : sorts psort (fun _ _ => True)).
    { intros x _. induction (psort x); constructor; auto. apply Forall_forall. auto. }
    intros h k. split.
    - intros (q & Hq & Hi & Hk). destruct (HK h q Hq) as (q1 & Q1 & Q2). assert (Hi1 : 0 < p_inlist q1) by (destruct Q2 as [->| ->]; auto).
      destruct (decide_all_best psort psort_perm _ _ _ _ HS LINK Hd h q1 Q1 Hi1) as (d & v & B1 & B2 & B3 & B4 & _).
      exists q1. split; [exact Q1|]. split; [exact Hi1|]. pose proof (RD h q1 Q1) as X. rewrite (proj2 (Z.ltb_lt _ _) Hi1) in X.
      assert (p_link q = p_link q1) by (destruct Q2 as [->| ->]; reflexivity). assert (v = Z.of_nat k) by congruence.
      destruct B4; [congruence|unfold NEXT_NONE in *; lia].
    - intros (q1 & Q1 & Hi1 & Hk). destruct (S1 h q1 Q1) as (q & Hq & (w & ->)).
      destruct (decide_all_best psort psort_perm _ _ _ _ HS LINK Hd h q1 Q1 Hi1) as (d & v & B1 & B2 & B3 & B4 & _).
      exists (set_next q1 w). split; [exact Hq|]. cbn [set_next p_inlist p_link]. split; [exact Hi1|].
      assert (v = Z.of_nat k) as <- by (destruct B4; [congruence|unfold NEXT_NONE in *; lia]). exact B2. }
  assert (FE : forall h p, nth_error cur' h = Some p -> exists q, nth_error cur h = Some q /\ p_final q = p_final p).
  { intros h p Hp. destruct (HK h p Hp) as (q1 & Q1 & Q2). exists q1. split; [exact Q1|]. destruct Q2 as [->| ->]; reflexivity. }
  assert (FE' : forall h p, nth_error cur h = Some p -> exists q, nth_error cur' h = Some q /\ p_final q = p_final p).
  { intros h p Hp. destruct (S1 h p Hp) as (q & Hq & (v & ->)). eexists. split; [exact Hq|reflexivity]. }
  assert (CB : forall h k, chose_best cur' h k <-> winner cur h k).
  { intros h k. split.
    - intros (p & Hp & C & B). destruct (FE h p Hp) as (q & Hq & Eq). exists q. split; [exact Hq|]. split; [now apply CW|].
      intros h' p' W' Hp' Nh. destruct (FE' h' p' Hp') as (q' & Hq' & Eq'). specialize (B h' q' (proj2 (CW h' k) W') Hq' Nh). rewrite Eq, <- Eq'. exact B.
    - intros (p & Hp & C & B). destruct (FE' h p Hp) as (q & Hq & Eq). exists q. split; [exact Hq|]. split; [now apply CW|].
      intros h' p' W' Hp' Nh. destruct (FE h' p' Hp') as (q' & Hq' & Eq'). specialize (B h' q' (proj1 (CW h' k) W') Hq' Nh). rewrite Eq, <- Eq'. exact B. }
  assert (CF : forall h k, chose_first cur' h k <-> leads cur h k).
  { intros h k. split.
    - intros (p & Hp & C & B). destruct (FE h p Hp) as (q & Hq & Eq). exists q. split; [exact Hq|]. split; [now apply CW|].
      intros h' p' Nh W' Hp'. destruct (FE' h' p' Hp') as (q' & Hq' & Eq'). specialize (B h' q' Nh (proj2 (CW h' k) W') Hq'). rewrite Eq, <- Eq'. exact B.
    - intros (p & Hp & C & B). destruct (FE' h p Hp) as (q & Hq & Eq). exists q. split; [exact Hq|]. split; [now apply CW|].
      intros h' p' Nh W' Hp'. destruct (FE h' p' Hp') as (q' & Hq' & Eq'). specialize (B h' q' Nh (proj1 (CW h' k) W') Hq'). rewrite Eq, <- Eq'. exact B. }
  split; [intros h k; rewrite G1; symmetry; apply CB|]. split; [intros h Hh; apply G2; intros k Hk; apply (Hh k), CB, Hk|]. split.
  - intros h k C. apply CW in C. assert (Hk : (k < length (fr_path d2))%nat).
    { destruct C as (p & Hp & Hi & Hn). pose proof (RD h p Hp) as X. rewrite (proj2 (Z.ltb_lt _ _) Hi) in X. lia. }
    split; [rewrite L2; exact Hk|]. destruct (G3 h k C Hk) as (w & Hw). exists w. now apply CB.
  - exists l. split; [exact G4|]. split; [|exact G6]. intros h. rewrite G5. split; intros (k & Hk); exists k; now apply CF.
Qed.
End Just.

