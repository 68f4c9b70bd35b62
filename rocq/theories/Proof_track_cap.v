(** How many link candidates one particle can register: the outcome of the
    search does not depend on the buffer size once it has 4n(4n+1) slots. *)
From Verif Require Import Base Lib F64 Model_corr Model_cand Spec_cand Model_track Spec_track Proof_track_rank Proof_track_reg Proof_track_link Proof_track_step.
Local Open Scope Z_scope.

Section Cap.
Variable n : nat.      (* extra slots *)
Variable cap : Z.
Local Notation F := (roomier n).

(** well formed, with at most [k] candidates registered, room for [cap] *)
Definition P (k : Z) (p : pinfo) : Prop :=
  0 <= p_inlist p <= k /\ cap <= Z.of_nat (length (p_decis p)) /\ cap <= Z.of_nat (length (p_link p)).

Lemma P_mono k k' p : k <= k' -> P k p -> P k' p.
Proof. unfold P. lia. Qed.

Lemma reg_sim k p d v : P k p -> k + 1 <= cap ->
  register_link_candidate (F p) d v = on_ok F (register_link_candidate p d v) /\
  (forall p', register_link_candidate p d v = Ok p' -> P (k + 1) p').
Proof.
  intros (A & B & C) H. unfold register_link_candidate, roomier. cbn [p_decis p_inlist p_link p_x p_prev p_next p_prio p_final].
  rewrite !pyset_in_range by (rewrite ?app_length; lia). cbn [bind on_ok].
  split.
  - cbn [p_decis p_inlist p_link p_x p_prev p_next p_prio p_final].
    assert (U : forall A (l r : list A) h a, (h < length l)%nat -> upd (l ++ r) h a = upd l h a ++ r).
    { intros T l r. induction l as [|y l IH]; intros [|h] a L; simpl in *; try lia; auto. f_equal. apply IH. lia. }
    rewrite !U by lia. reflexivity.
  - intros p' [= <-]. unfold P. cbn [p_decis p_inlist p_link]. rewrite !upd_length. lia.
Qed.

Lemma while_sim {T} (G : T -> T) (Q : Z -> T -> Prop) c l go (body : foundpix -> T -> result T) :
  0 <= c -> (forall k k' s, k <= k' -> Q k s -> Q k' s) ->
  (forall f s, In f l -> go f (G s) = go f s) ->
  (forall f k s, In f l -> go f s = true -> Q k s -> k + c <= cap ->
     body f (G s) = on_ok G (body f s) /\ (forall s', body f s = Ok s' -> Q (k + c) s')) ->
  forall k s, Q k s -> k + c * Z.of_nat (length l) <= cap ->
  while_cands l go body (G s) = on_ok G (while_cands l go body s) /\
  (forall s', while_cands l go body s = Ok s' -> Q (k + c * Z.of_nat (length l)) s').
Proof.
  intros Hc Mono Hgo Hb. induction l as [|f l IH]; intros k s Hs Hk; cbn [while_cands].
  - split; [reflexivity|discriminate].
  - cbn [length] in Hk. rewrite Hgo by now left. destruct (go f s) eqn:E.
    + destruct (Hb f k s (or_introl eq_refl) E Hs ltac:(nia)) as (B1 & B2). rewrite B1.
      destruct (body f s) as [s1|e]; cbn [on_ok bind]; [|split; [auto|discriminate]].
      destruct (IH (fun f s H => Hgo f s (or_intror H)) (fun f k s H => Hb f k s (or_intror H)) (k + c) s1 (B2 s1 eq_refl) ltac:(lia)) as (I1 & I2).
      split; auto. intros s' H. cbn [length].
      replace (k + c * Z.of_nat (S (length l))) with (k + c + c * Z.of_nat (length l)) by lia. auto.
    + split; auto. intros s' [= <-]. eapply Mono; [|eassumption]. nia.
Qed.

(** a result that is either an error or untouched *)
Lemma on_ok_bind {A B C} (f : B -> C) (r : result A) (g : A -> result B) (h : A -> result C) :
  (forall a, r = Ok a -> h a = on_ok f (g a)) -> (do a <- r; h a) = on_ok f (do a <- r; g a).
Proof. destruct r; cbn; auto. Qed.
Lemma on_ok_bind2 {A B C} (G : A -> A) (f : B -> C) (r' r : result A) (g : A -> result B) (h : A -> result C) :
  r' = on_ok G r -> (forall a, r = Ok a -> h (G a) = on_ok f (g a)) -> (do a <- r'; h a) = on_ok f (do a <- r; g a).
Proof. intros ->. destruct r; cbn; auto. Qed.

Variable pixdist : f64 -> f64 -> f64 -> f64 -> f64.
Variable ncam : nat.
Hypothesis ncam_ok : (1 <= ncam <= 4)%nat.
Variables imx imy : Z.
Variable point_to_pixel : Z -> vec -> f64 * f64.
Variable searchquader : Z -> vec -> f64 * f64 * f64 * f64.
Variable moving : vec -> vec -> vec.
Variable extrap : vec -> vec -> vec -> vec.
Variable vec_subt : vec -> vec -> vec.
Variable vec_diff_norm : vec -> vec -> f64.
Variable angle_acc : vec -> vec -> vec -> f64 * f64.
Variable to_flat : Z -> f64 -> f64 -> f64 * f64.
Variable point_position : list (f64 * f64) -> vec.
Variable tp : tpar.
Variable vl : vol.
Let nc := Z.of_nat ncam.
Local Notation second_loop := (second_loop vec_subt vec_diff_norm angle_acc tp vl).
Local Notation first_body := (first_body pixdist nc imx imy point_to_pixel searchquader moving extrap vec_subt vec_diff_norm angle_acc to_flat point_position tp vl).
Local Notation track_one := (track_one pixdist nc imx imy point_to_pixel searchquader moving extrap vec_subt vec_diff_norm angle_acc to_flat point_position tp vl).

Lemma volume_len center proj frm w :
  sorted_candidates_in_volume pixdist nc imx imy searchquader center proj frm = Ok w -> Z.of_nat (length w) <= 4 * nc.
Proof.
  intros H. destruct (volume_exact pixdist ncam imx imy searchquader center proj frm w ncam_ok H) as (ids & L & HC & (d & R0 & _)).
  unfold nc. lia.
Qed.

Lemma second_sim wn f buf3 x1 x2 x3 x5 hp k p : Z.of_nat (length wn) <= 4 * nc -> P k p -> k + 4 * nc <= cap ->
  second_loop wn f buf3 x1 x2 x3 x5 hp (F p) = on_ok F (second_loop wn f buf3 x1 x2 x3 x5 hp p) /\
  (forall p', second_loop wn f buf3 x1 x2 x3 x5 hp p = Ok p' -> P (k + 4 * nc) p').
Proof.
  intros Hl Hp Hk. unfold Model_track.second_loop.
  match goal with |- context [while_cands wn ?go ?body (F p)] =>
    destruct (while_sim F P 1 wn go body ltac:(lia) P_mono ltac:(auto)) with (k := k) (s := p) as (A & B); auto; [|lia|] end.
  - intros g k' s Hg Hgo Hs Hk'. destruct (pyget (fr_path buf3) (ftnr g)) as [q|e]; cbn [bind]; [|split; [auto|discriminate]].
    assert (IDLE : Ok (F s) = on_ok F (Ok s) /\ (forall s', Ok s = Ok s' -> P (k' + 1) s')).
    { split; auto. intros s' [= <-]. eapply P_mono; [|eassumption]. lia. }
    destruct (pos3d_in_bounds tp _); auto. destruct (angle_acc x3 (p_x q) x5) as [a1 c1]. destruct (if hp then _ else _) as [a0 c0].
    destruct (acceptable tp _ _); auto. apply reg_sim; auto.
  - split; auto. intros p' H. eapply P_mono; [|apply B; eauto]. lia.
Qed.

Definition F3 (s : pinfo * frame * frame) : pinfo * frame * frame := let '(p, a, b) := s in (F p, a, b).
Definition P3 (k : Z) (s : pinfo * frame * frame) : Prop := P k (fst (fst s)).

Lemma first_sim x0 x1 x2 f k s : P3 k s -> k + (4 * nc + 1) <= cap ->
  first_body x0 x1 x2 f (F3 s) = on_ok F3 (first_body x0 x1 x2 f s) /\
  (forall s', first_body x0 x1 x2 f s = Ok s' -> P3 (k + (4 * nc + 1)) s').
Proof.
  destruct s as [[p buf2] buf3]. unfold P3. cbn [fst]. intros HP Hk. unfold F3, Model_track.first_body.
  change (p_prev (F p)) with (p_prev p).
  destruct (pyget (fr_path buf2) (ftnr f)) as [q|e]; cbn [bind]; [|split; [auto|discriminate]].
  set (x3 := p_x q). set (x5 := if 0 <=? p_prev p then extrap x3 x1 x0 else moving x1 x3).
  destruct (sorted_candidates_in_volume pixdist nc imx imy searchquader x5 (projections nc point_to_pixel x5) buf3) as [wn|e] eqn:Ewn;
    cbn [bind]; [|split; [auto|discriminate]].
  pose proof (volume_len _ _ _ _ Ewn) as Lwn.
  set (m1 := if Z.of_nat (length wn) >? 1 then second_loop wn f buf3 x1 x2 x3 x5 (0 <=? p_prev p) p else Ok p).
  set (m1' := if Z.of_nat (length wn) >? 1 then second_loop wn f buf3 x1 x2 x3 x5 (0 <=? p_prev p) (F p) else Ok (F p)).
  assert (S1 : m1' = on_ok F m1 /\ forall p', m1 = Ok p' -> P (k + 4 * nc) p').
  { unfold m1, m1'. destruct (_ >? 1); [apply second_sim; auto; lia|].
    split; auto. intros p' [= <-]. eapply P_mono; [|eassumption]. lia. }
  destruct S1 as (S1 & S1'). rewrite S1. clearbody m1 m1'. clear S1. destruct m1 as [p1|e]; cbn [on_ok bind]; [|split; [auto|discriminate]].
  specialize (S1' p1 eq_refl).
  destruct (assess_new_position pixdist nc imx imy point_to_pixel to_flat x5 buf3) as [[[quali v2] philf]|e]; cbn [bind]; [|split; [auto|discriminate]].
  set (g := fun pb : pinfo * frame => (F (fst pb), snd pb)).
  match goal with |- (do pb <- ?r'; _) = on_ok _ (do pb <- ?r; _) /\ _ => set (m2' := r'); set (m2 := r) end.
  assert (S2 : m2' = on_ok g m2 /\ forall pb, m2 = Ok pb -> P (k + (4 * nc + 1)) (fst pb)).
  { assert (ID : forall b, Ok (F p1, b) = on_ok g (Ok (p1, b)) /\ forall pb : pinfo * frame, Ok (p1, b) = Ok pb -> P (k + (4 * nc + 1)) (fst pb)).
    { intros b. split; auto. intros pb [= <-]. cbn [fst]. eapply P_mono; [|eassumption]. lia. }
    unfold m2, m2'. destruct (2 <=? quali); auto. destruct (in_volume _ _ _ _ && _); auto.
    destruct (angle_acc _ _ _) as [an ac]. destruct (acceptable tp an ac); auto.
    match goal with |- context [register_link_candidate p1 ?d ?v] => destruct (reg_sim (k + 4 * nc) p1 d v S1' ltac:(lia)) as (R1 & R2); rewrite R1;
      destruct (register_link_candidate p1 d v) as [p2|e]; cbn [on_ok bind]; [|split; [auto|discriminate]] end.
    specialize (R2 p2 eq_refl). replace (k + (4 * nc + 1)) with (k + 4 * nc + 1) by lia.
    destruct (do_add tp).
    - destruct (add_particle nc buf3 _ philf) as [b|e]; cbn [bind on_ok]; [|split; [auto|discriminate]]. split; auto. intros pb [= <-]. auto.
    - split; auto. intros pb [= <-]. auto. }
  destruct S2 as (S2 & S2'). rewrite S2. clearbody m2 m2'. clear S2.
  destruct m2 as [[p2 b3]|e]; cbn [on_ok bind g fst snd]; [|split; [auto|discriminate]].
  specialize (S2' (p2, b3) eq_refl). cbn [fst] in S2'.
  change (p_inlist (F p2)) with (p_inlist p2).
  assert (ID : forall r : result pinfo, r = Ok p2 ->
     (do a <- Ok (F p2); Ok (a, buf2, b3)) = on_ok F3 (do a <- r; Ok (a, buf2, b3)) /\
     (forall s', (do a <- r; Ok (a, buf2, b3)) = Ok s' -> P (k + (4 * nc + 1)) (fst (fst s')))).
  { intros r ->. cbn. split; auto. intros s' [= <-]. auto. }
  destruct ((p_inlist p2 =? 0) && (0 <=? p_prev p)) eqn:E0; [|apply ID; auto].
  apply andb_true_iff in E0 as (E0 & _). apply Z.eqb_eq in E0.
  destruct (pos3d_in_bounds tp _); [|apply ID; auto]. destruct (angle_acc _ _ _) as [an ac].
  destruct (acceptable tp an ac); [|apply ID; auto].
  assert (Pz : P (k + 4 * nc) p2).
  { destruct S2' as (A & B & C). destruct HP as (HP & _). unfold P, nc in *. lia. }
  match goal with |- context [register_link_candidate p2 ?d ?v] => destruct (reg_sim (k + 4 * nc) p2 d v Pz ltac:(lia)) as (R1 & R2); rewrite R1;
    destruct (register_link_candidate p2 d v) as [p3|e]; cbn [on_ok bind]; [|split; [auto|discriminate]] end.
  split; auto. intros s' [= <-]. cbn [fst]. specialize (R2 p3 eq_refl). eapply P_mono; [|eassumption]. lia.
Qed.

Definition F4 (s : frame * frame * frame) : frame * frame * frame := let '(a, b, c) := s in (roomier_frame n a, b, c).

Lemma pyget_map {A B} (f : A -> B) l i : pyget (map f l) i = on_ok f (pyget l i).
Proof.
  unfold pyget. rewrite map_length. destruct (pyidx (length l) i) as [k|]; [|reflexivity].
  rewrite nth_error_map. destruct (nth_error l k); reflexivity.
Qed.
Lemma pyset_map {A B} (f : A -> B) l i v : pyset (map f l) i (f v) = on_ok (map f) (pyset l i v).
Proof.
  unfold pyset. rewrite map_length. destruct (pyidx (length l) i) as [k|]; [|reflexivity]. cbn. now rewrite map_upd.
Qed.

Theorem track_one_sim buf0 b1 b2 b3 h : 4 * nc * (4 * nc + 1) <= cap ->
  (forall p, nth_error (fr_path b1) (Z.to_nat h) = Some p -> cap <= Z.of_nat (length (p_decis p)) /\ cap <= Z.of_nat (length (p_link p))) ->
  0 <= h ->
  track_one buf0 (F4 (b1, b2, b3)) h = on_ok F4 (track_one buf0 (b1, b2, b3) h) /\
  (forall c1 c2 c3, track_one buf0 (b1, b2, b3) h = Ok (c1, c2, c3) ->
     exists p, nth_error (fr_path c1) (Z.to_nat h) = Some p /\ 0 <= p_inlist p <= 4 * nc * (4 * nc + 1)).
Proof.
  intros HC HL Hh. unfold F4, Model_track.track_one. cbn [roomier_frame set_path fr_path fr_corr fr_targ].
  rewrite pyget_map. destruct (pyget (fr_path b1) h) as [p|e] eqn:Ep; cbn [on_ok bind]; [|split; [auto|discriminate]].
  apply pyget_ok_iff in Ep; auto. destruct (HL p Ep) as (L1 & L2).
  destruct (pyget (fr_corr b1) h) as [c|e]; cbn [bind]; [|split; [auto|discriminate]].
  change (reset_inlist (F p)) with (F (reset_inlist p)). set (rp := reset_inlist p).
  change (p_prev (F rp)) with (p_prev rp). change (p_x (F rp)) with (p_x rp).
  match goal with |- context [bind ?r _] => destruct r as [[[x0 x2] v1]|e]; cbn [bind]; [|split; [auto|discriminate]] end.
  destruct (sorted_candidates_in_volume pixdist nc imx imy searchquader x2 v1 b2) as [w|e] eqn:Ew; cbn [bind]; [|split; [auto|discriminate]].
  pose proof (volume_len _ _ _ _ Ew) as Lw.
  assert (P0 : P3 0 (rp, b2, b3)). { unfold P3, P, rp. cbn. lia. }
  match goal with |- (do s <- ?r'; _) = on_ok _ (do s <- ?r; _) /\ _ => set (m' := r'); set (m := r) end.
  assert (S1 : m' = on_ok F3 m /\ forall s, m = Ok s -> P3 (4 * nc * (4 * nc + 1)) s).
  { unfold m, m'. destruct (_ =? 1).
    { split; auto. intros s [= <-]. unfold P3 in *. eapply P_mono; [|eassumption]. unfold nc. nia. }
    match goal with |- context [while_cands w ?go ?body (F rp, b2, b3)] =>
      destruct (while_sim F3 P3 (4 * nc + 1) w go body ltac:(unfold nc; lia) (fun k k' s => P_mono k k' (fst (fst s)))) with (k := 0) (s := (rp, b2, b3)) as (A & B); auto end.
    - intros f [[ps bs2] bs3] _. reflexivity.
    - intros f k s _ _ Hs Hk. apply first_sim; auto.
    - nia.
    - match goal with |- context [while_cands w ?go ?body (rp, b2, b3)] => set (W := while_cands w go body) in * end.
      change (F rp, b2, b3) with (F3 (rp, b2, b3)). rewrite A.
      destruct (W (rp, b2, b3)) as [[[p1 b21] b31]|e]; cbn [on_ok bind F3]; [|split; [auto|discriminate]].
      specialize (B _ eq_refl). unfold P3 in B. cbn [fst] in B. rewrite Z.add_0_l in B.
      assert (B' : P (4 * nc * (4 * nc + 1)) p1). { eapply P_mono; [|eassumption]. unfold nc in *. nia. }
      assert (IDLE : forall b, Ok (F p1, b, b31) = on_ok F3 (Ok (p1, b, b31)) /\ forall s, Ok (p1, b, b31) = Ok s -> P3 (4 * nc * (4 * nc + 1)) s).
      { intros b. split; auto. intros s [= <-]. auto. }
      change (p_inlist (F p1)) with (p_inlist p1).
      destruct (do_add tp && (p_inlist p1 =? 0) && (0 <=? p_prev rp)) eqn:E0; auto.
      apply andb_true_iff in E0 as (E0 & _). apply andb_true_iff in E0 as (_ & E0). apply Z.eqb_eq in E0.
      destruct (assess_new_position pixdist nc imx imy point_to_pixel to_flat x2 b21) as [[[quali v2] philf]|e]; cbn [bind]; [|split; [auto|discriminate]].
      destruct (2 <=? quali); auto. destruct (in_volume _ _ _ _ && _); auto.
      destruct (angle_acc _ _ _) as [an ac]. destruct (acceptable tp an ac); auto.
      assert (Pz : P 0 p1) by (unfold P in *; lia).
      match goal with |- context [register_link_candidate p1 ?d ?v] => destruct (reg_sim 0 p1 d v Pz ltac:(unfold nc in *; nia)) as (R1 & R2); rewrite R1;
        destruct (register_link_candidate p1 d v) as [p3|e]; cbn [on_ok bind]; [|split; [auto|discriminate]] end.
      destruct (add_particle nc b21 _ philf) as [b|e]; cbn [bind on_ok]; [|split; [auto|discriminate]].
      split; auto. intros s [= <-]. unfold P3. cbn [fst]. eapply P_mono; [|apply R2; eauto]. unfold nc. nia. }
  destruct S1 as (S1 & S1'). rewrite S1. clearbody m m'. clear S1. destruct m as [[[p1 b21] b31]|e]; cbn [on_ok bind F3]; [|split; [auto|discriminate]].
  specialize (S1' _ eq_refl). unfold P3 in S1'. cbn [fst] in S1'.
  rewrite pyset_map. destruct (pyset (fr_path b1) h p1) as [path|e] eqn:Es; cbn [on_ok bind]; [|split; [auto|discriminate]].
  split; [reflexivity|]. intros c1 c2 c3 [= <- <- <-]. apply pyset_ok in Es as (L & ->); auto.
  exists p1. cbn [set_path fr_path]. rewrite nth_error_upd_eq by lia. split; auto. destruct S1' as (S & _). exact S.
Qed.
End Cap.
