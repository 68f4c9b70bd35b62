(** A run on any world that keeps frames is a run on numbered contents. *)
From Verif Require Import F64 Model_text Model_corr Model_track Model_fb Model_io Model_files Base.
Local Open Scope Z_scope.

Section Sim.
Variables F W D : Type.
Variable rd : W -> Z -> bool -> result F.
Variable wr : W -> F -> Z -> result W.
Variable parse : bool -> D -> result F.
Variable store : F -> D.
Variable fstep : F -> F -> F -> F -> result (F * F * F * Z).
Variable bstep : F -> F -> F -> F -> result (F * F * Z).
(** the world [w] holds the contents [d] of the frames of a range of numbers, and nothing else has changed *)
Variable sim : W -> disk D -> Prop.
Variable rng : Z -> Prop.
Hypothesis sim_read : forall w d n l, sim w d -> rng n -> rd w n l = parse l (d n).
Hypothesis sim_write : forall w d f n w', sim w d -> rng n -> wr w f n = Ok w' -> sim w' (Model_fb.put D d n (store f)).
Definition sim_st (a : wstate F W) (b : rstate F D) : Prop := fst a = fst b /\ sim (snd a) (snd b).

Lemma read_sim a b n l a' : sim_st a b -> rng n -> w_read F W rd a n l = Ok a' ->
  exists b', read_frame_at_end F D parse b n l = Ok b' /\ sim_st a' b'.
Proof.
  destruct a as [buf w], b as [buf' d]. intros (E & S) Hn H. cbn [fst snd] in *. subst buf'. unfold w_read in H.
  apply bind_ok in H as (f & Hf & H). apply bind_ok in H as (b1 & Hb & H). injection H as <-.
  exists (b1, d). unfold read_frame_at_end. rewrite <- (sim_read _ _ _ l S Hn), Hf. cbn [bind]. rewrite Hb. split; [reflexivity|]. split; auto.
Qed.
Lemma write_sim a b n a' : sim_st a b -> rng n -> w_write F W wr a n = Ok a' ->
  exists b', write_frame_from_start F D store b n = Ok b' /\ sim_st a' b'.
Proof.
  destruct a as [buf w], b as [buf' d]. intros (E & S) Hn H. cbn [fst snd] in *. subst buf'. unfold w_write in H.
  apply bind_ok in H as (f & Hf & H). apply bind_ok in H as (w' & Hw & H). injection H as <-.
  eexists. unfold write_frame_from_start. rewrite Hf. cbn [bind]. split; [reflexivity|]. split; cbn [fst snd]; auto. eapply sim_write; eauto.
Qed.
Lemma next_sim a b : sim_st a b -> sim_st (w_next F W a) (next F D b).
Proof. intros (E & S). split; auto. cbn [w_next next fst]. now rewrite E. Qed.
Lemma prev_sim a b : sim_st a b -> sim_st (w_prev F W a) (prev F D b).
Proof. intros (E & S). split; auto. cbn [w_prev prev fst]. now rewrite E. Qed.

Lemma fold_sim {A S S'} (P : S -> S' -> Prop) f f' (l : list A) s s' r : P s s' ->
  (forall a s s' r, In a l -> P s s' -> f s a = Ok r -> exists r', f' s' a = Ok r' /\ P r r') ->
  foldM f l s = Ok r -> exists r', foldM f' l s' = Ok r' /\ P r r'.
Proof.
  revert s s'. induction l as [|a l IH]; intros s s' H0 HS H; cbn [foldM] in *; [injection H as <-; eauto|].
  apply bind_ok in H as (s1 & H1 & H). destruct (HS a s s' s1 (or_introl eq_refl) H0 H1) as (s1' & H1' & P1). rewrite H1'. cbn [bind].
  eapply IH; eauto. intros; eapply HS; eauto. now right.
Qed.
Lemma in_zrange n a b : In n (zrange a b) -> a <= n < b.
Proof. apply In_zrange. Qed.

Lemma loop_sim last a b step a' : sim_st (fst a) (fst b) /\ snd a = snd b -> rng step -> (step < last - 2 -> rng (step + 3)) ->
  w_loop F W rd wr fstep last a step = Ok a' ->
  exists b', trackcorr_c_loop F D parse store fstep last b step = Ok b' /\ sim_st (fst a') (fst b') /\ snd a' = snd b'.
Proof.
  destruct a as [[buf w] nl], b as [[buf' d] nl']. intros ((E & S) & En) R1 R2 H. cbn [fst snd] in *. subst buf' nl'.
  unfold w_loop in H. unfold trackcorr_c_loop.
  apply bind_ok in H as (x0 & H0 & H). apply bind_ok in H as (x1 & H1 & H). apply bind_ok in H as (x2 & H2 & H). apply bind_ok in H as (x3 & H3 & H).
  rewrite H0, H1, H2, H3. cbn [bind]. apply bind_ok in H as ([[[y1 y2] y3] c] & Hs & H). rewrite Hs. cbn [bind].
  apply bind_ok in H as (b1 & Hb1 & H). apply bind_ok in H as (b2 & Hb2 & H). apply bind_ok in H as (b3 & Hb3 & H). rewrite Hb1. cbn [bind]. rewrite Hb2. cbn [bind]. rewrite Hb3. cbn [bind].
  apply bind_ok in H as (st & Hw & H). destruct (write_sim _ (next F D (b3, d)) step st (next_sim (b3, w) (b3, d) (conj eq_refl S)) R1 Hw) as (st' & Hw' & S'). rewrite Hw'. cbn [bind].
  apply bind_ok in H as (st1 & Hr & H). injection H as <-.
  destruct (Z.ltb_spec step (last - 2)) as [L|L].
  - destruct (read_sim _ _ _ _ _ S' (R2 L) Hr) as (st1' & Hr' & S1). rewrite Hr'. cbn [bind]. eexists. split; [reflexivity|]. split; auto.
  - injection Hr as <-. cbn [bind]. eexists. split; [reflexivity|]. split; auto.
Qed.
Theorem forward_sim first last a b a' nl : (forall n, first <= n <= Z.max last (first + 2) -> rng n) -> first <= last -> sim_st a b ->
  w_forward F W rd wr fstep first last a = Ok (a', nl) ->
  exists b', full_forward F D parse store fstep first last b = Ok (b', nl) /\ sim_st a' b'.
Proof.
  intros R Hl S H. unfold w_forward in H. unfold full_forward.
  apply bind_ok in H as (a1 & H1 & H). unfold w_start in H1. apply bind_ok in H1 as (a0 & H0 & H1). injection H1 as <-.
  apply (fold_sim sim_st _ (fun st step => do st <- read_frame_at_end F D parse st step false; Ok (next F D st)) _ _ b) in H0 as (b0 & H0' & S0); [| exact S |].
  2:{ intros n s s' r Hn HS Hf. apply in_zrange in Hn. apply bind_ok in Hf as (s1 & Hf & Hr). injection Hr as <-.
      destruct (read_sim _ _ n _ _ HS ltac:(apply R; lia) Hf) as (s1' & E1 & S1). rewrite E1. cbn [bind]. eexists. split; [reflexivity|]. now apply next_sim. }
  unfold track_forward_start. rewrite H0'. cbn [bind].
  apply bind_ok in H as (st & Hst & H).
  apply (fold_sim (fun a b => sim_st (fst a) (fst b) /\ snd a = snd b) _ (trackcorr_c_loop F D parse store fstep last) _ _ (prev F D b0, 0)) in Hst as (st' & Hst' & S1 & En).
  2:{ cbn [fst snd]. split; auto. now apply prev_sim. }
  2:{ intros n s s' r Hn HS Hf. apply in_zrange in Hn. eapply loop_sim; eauto; [apply R; lia|]. intros. apply R. lia. }
  rewrite Hst'. cbn [bind]. apply bind_ok in H as (a2 & Hf & H). injection H as <- <-.
  unfold w_finish in Hf. unfold trackcorr_c_finish. destruct (_ =? 0); [discriminate|].
  destruct (write_sim _ _ last _ (next_sim _ _ S1) ltac:(apply R; lia) Hf) as (b2 & Hw & S2). rewrite Hw. cbn [bind]. rewrite En. eauto.
Qed.

Lemma back_loop_sim first a b step a' : sim_st (fst a) (fst b) /\ snd a = snd b -> rng step -> (first + 2 < step -> rng (step - 3)) ->
  w_back_loop F W rd wr bstep first a step = Ok a' ->
  exists b', trackback_loop F D parse store bstep first b step = Ok b' /\ sim_st (fst a') (fst b') /\ snd a' = snd b'.
Proof.
  destruct a as [[buf w] nl], b as [[buf' d] nl']. intros ((E & S) & En) R1 R2 H. cbn [fst snd] in *. subst buf' nl'.
  unfold w_back_loop in H. unfold trackback_loop.
  apply bind_ok in H as (x0 & H0 & H). apply bind_ok in H as (x1 & H1 & H). apply bind_ok in H as (x2 & H2 & H). apply bind_ok in H as (x3 & H3 & H).
  rewrite H0, H1, H2, H3. cbn [bind]. apply bind_ok in H as ([[y1 y2] c] & Hs & H). rewrite Hs. cbn [bind].
  apply bind_ok in H as (b1 & Hb1 & H). apply bind_ok in H as (b2 & Hb2 & H). rewrite Hb1. cbn [bind]. rewrite Hb2. cbn [bind].
  apply bind_ok in H as (st & Hw & H). destruct (write_sim _ (next F D (b2, d)) step st (next_sim (b2, w) (b2, d) (conj eq_refl S)) R1 Hw) as (st' & Hw' & S'). rewrite Hw'. cbn [bind].
  apply bind_ok in H as (st1 & Hr & H). injection H as <-. rewrite Z.gtb_ltb in *.
  destruct (Z.ltb_spec (first + 2) step) as [L|L].
  - destruct (read_sim _ _ _ _ _ S' (R2 L) Hr) as (st1' & Hr' & S1). rewrite Hr'. cbn [bind]. eexists. split; [reflexivity|]. split; auto.
  - injection Hr as <-. cbn [bind]. eexists. split; [reflexivity|]. split; auto.
Qed.
Theorem backward_sim first last a b a' nl : (forall n, Z.min first (last - 3) <= n <= last -> rng n) -> first + 2 <= last -> sim_st a b ->
  w_backward F W rd wr bstep first last a = Ok (a', nl) ->
  exists b', trackback_c F D parse store bstep first last b = Ok (b', nl) /\ sim_st a' b'.
Proof.
  intros R Hl S H. unfold w_backward in H. unfold trackback_c.
  assert (ZD : forall n lo hi, In n (zdown hi lo) -> lo < n <= hi).
  { intros n lo hi Hn. unfold zdown in Hn. apply in_rev, in_zrange in Hn. lia. }
  apply bind_ok in H as (a0 & H0 & H).
  apply (fold_sim sim_st _ (fun st step => do st <- read_frame_at_end F D parse st step true; Ok (next F D st)) _ _ b) in H0 as (b0 & H0' & S0); [| exact S |].
  2:{ intros n s s' r Hn HS Hf. apply ZD in Hn. apply bind_ok in Hf as (s1 & Hf & Hr). injection Hr as <-.
      destruct (read_sim _ _ n _ _ HS ltac:(apply R; lia) Hf) as (s1' & E1 & S1). rewrite E1. cbn [bind]. eexists. split; [reflexivity|]. now apply next_sim. }
  rewrite H0'. cbn [bind]. cbv zeta in H. apply bind_ok in H as (st & Hst & H).
  apply (fold_sim (fun a b => sim_st (fst a) (fst b) /\ snd a = snd b) _ (trackback_loop F D parse store bstep first) _ _ (prev F D b0, 0)) in Hst as (st' & Hst' & S1 & En).
  2:{ cbn [fst snd]. split; auto. now apply prev_sim. }
  2:{ intros n s s' r Hn HS Hf. apply ZD in Hn. eapply back_loop_sim; eauto; [apply R; lia|]. intros. apply R. lia. }
  rewrite Hst'. cbn [bind]. destruct (_ =? 0); [discriminate|]. apply bind_ok in H as (a2 & Hf & H). injection H as <- <-.
  assert (I : rng (List.last (zdown (last - 1) first) (last - 3))).
  { assert (In (List.last (zdown (last - 1) first) (last - 3)) (zdown (last - 1) first)) as I.
    { destruct (zdown (last - 1) first) as [|x l] eqn:Ez.
      - exfalso. apply (f_equal (@length _)) in Ez. unfold zdown in Ez. rewrite rev_length, zrange_length in Ez. cbn [length] in Ez. lia.
      - clear. revert x. induction l as [|y l IH]; intros x; [now left|]. right. exact (IH y). }
    apply ZD in I. apply R. lia. }
  destruct (write_sim _ _ _ _ (next_sim _ _ S1) I Hf) as (b2 & Hw & S2).
  rewrite Hw. cbn [bind]. rewrite En. eauto.
Qed.
End Sim.
