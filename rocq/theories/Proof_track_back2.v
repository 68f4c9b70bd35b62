(** Backward step: what else changes, and the check of joined tracks. *)
From Coq Require Import Permutation.
From Verif Require Import Base Lib F64 Model_corr Model_cand Spec_cand Model_track Spec_track Proof_track_search Proof_track_rank Proof_track_reg Proof_track_link Proof_track_step Proof_track_back Proof_track_just Proof_track_just2.
Local Open Scope Z_scope.

(** only the candidates differ *)
Definition only_cands (p q : pinfo) : Prop :=
  p_x q = p_x p /\ p_prev q = p_prev p /\ p_next q = p_next p /\ p_prio q = p_prio p /\ p_final q = p_final p.
Definition all_only (l l' : list pinfo) : Prop :=
  length l' = length l /\ forall h q, nth_error l' h = Some q -> exists p, nth_error l h = Some p /\ only_cands p q.
Lemma only_refl p : only_cands p p. Proof. repeat split. Qed.
Lemma only_trans p q r : only_cands p q -> only_cands q r -> only_cands p r.
Proof. unfold only_cands. intuition congruence. Qed.
Lemma all_only_refl l : all_only l l. Proof. split; auto. intros h q H. exists q. split; auto. apply only_refl. Qed.
Lemma all_only_trans a b c : all_only a b -> all_only b c -> all_only a c.
Proof.
  intros (L1 & H1) (L2 & H2). split; [congruence|]. intros h r Hr. destruct (H2 _ _ Hr) as (q & Hq & O2). destruct (H1 _ _ Hq) as (p & Hp & O1).
  exists p. split; auto. eapply only_trans; eauto.
Qed.
Lemma all_only_upd l k p q : nth_error l k = Some p -> only_cands p q -> all_only l (upd l k q).
Proof.
  intros Hp O. split; [apply upd_length|]. intros h r Hr. destruct (Nat.eq_dec h k) as [->|N].
  - rewrite nth_error_upd_eq in Hr by (apply nth_error_Some; congruence). injection Hr as <-. eauto.
  - rewrite nth_error_upd_neq in Hr by auto. exists r. split; auto. apply only_refl.
Qed.
Lemma register_only p f k q : register_link_candidate p f k = Ok q -> only_cands p q.
Proof.
  unfold register_link_candidate. intros H. apply bind_ok in H as (d & _ & H). apply bind_ok in H as (l & _ & H). injection H as <-. repeat split.
Qed.

Section Back2.
Variable psort : list (f64 * Z) -> list (f64 * Z).
Hypothesis psort_perm : forall l, Permutation l (psort l).
Variable pixdist : f64 -> f64 -> f64 -> f64 -> f64.
Variable ncam : nat.
Hypothesis ncam_ok : (1 <= ncam <= 4)%nat.
Variables imx imy : Z.
Variable point_to_pixel : Z -> vec -> f64 * f64.
Variable searchquader : Z -> vec -> f64 * f64 * f64 * f64.
Variable moving : vec -> vec -> vec.
Variable extrap : vec -> vec -> vec -> vec.
Variable vec_subt : vec -> vec -> vec.
Variable vec_diff_norm : vec -> vec -> f64.
Variable angle_acc : vec -> vec -> vec -> f64 * f64.
Variable to_flat : Z -> f64 -> f64 -> f64 * f64.
Variable point_position : list (f64 * f64) -> vec.
Variable tp : tpar.
Variable vl : vol.
Let nc := Z.of_nat ncam.
Local Notation trackback_one := (trackback_one pixdist nc imx imy point_to_pixel searchquader moving vec_subt vec_diff_norm angle_acc to_flat point_position tp vl).
Local Notation trackback_step := (trackback_step psort pixdist nc imx imy point_to_pixel searchquader moving extrap vec_subt vec_diff_norm angle_acc to_flat point_position tp vl).

Lemma trackback_one_only buf0 b1 b2 h b1' b2' : 0 <= h ->
  trackback_one buf0 (b1, b2) h = Ok (b1', b2') -> all_only (fr_path b1) (fr_path b1').
Proof.
  intros Hh H. unfold Model_track.trackback_one in H.
  apply bind_ok in H as (p & Hp & H). apply pyget_ok_iff in Hp; auto.
  destruct (_ || _); [injection H as <- <-; apply all_only_refl|].
  apply bind_ok in H as (q0 & Hq0 & H). apply bind_ok in H as (w & Hw & H). apply bind_ok in H as (p1 & Hwh & H).
  apply bind_ok in H as ([p2 b2x] & Hb & H).
  assert (O1 : only_cands p p1).
  { apply (while_inv (fun q => only_cands p q)) in Hwh; [exact Hwh|repeat split|].
    intros f s s1 Hf Hgo O Hx. apply bind_ok in Hx as (q & Hq & Hx).
    destruct (pos3d_in_bounds tp _); [|injection Hx as <-; auto]. destruct (angle_acc _ _ _) as [an ac].
    destruct (acceptable tp an ac); [|injection Hx as <-; auto]. eapply only_trans; [exact O|]. eapply register_only; eauto. }
  assert (O2 : only_cands p p2).
  { destruct (_ && _); [|injection Hb as <- <-; auto]. apply bind_ok in Hb as ([[quali v2] philf] & _ & Hb).
    destruct (2 <=? quali); [|injection Hb as <- <-; auto]. destruct (_ && _); [|injection Hb as <- <-; auto].
    destruct (angle_acc _ _ _) as [an ac]. destruct (acceptable tp an ac); [|injection Hb as <- <-; auto].
    apply bind_ok in Hb as (p3 & Hr & Hb). apply bind_ok in Hb as (b & _ & Hb). injection Hb as <- <-.
    eapply only_trans; [exact O1|]. eapply register_only; eauto. }
  apply bind_ok in H as (path & Hpath & H). injection H as <- <-.
  apply pyset_ok in Hpath as (L & ->); auto. cbn [set_path fr_path]. eapply all_only_upd; eauto.
Qed.

Lemma trackback_all_only buf0 b1 b2 c1 c2 n : foldM (trackback_one buf0) (zrange 0 n) (b1, b2) = Ok (c1, c2) -> all_only (fr_path b1) (fr_path c1).
Proof.
  intros H. apply (foldM_inv (fun _ '(c1, _) => all_only (fr_path b1) (fr_path c1))) in H; [exact H|apply all_only_refl|].
  intros done h rest [d1 d2] [e1 e2] E O Hs. apply zrange_split in E as (_ & Hh & _).
  eapply all_only_trans; [exact O|]. eapply trackback_one_only; [|exact Hs]. lia.
Qed.

Lemma back_decide_only num cur cur' : back_decide psort num cur = Ok cur' -> all_only cur cur'.
Proof.
  intros H. apply (foldM_inv (fun _ c => all_only cur c)) in H; [exact H|apply all_only_refl|].
  intros done h rest s s1 E O Hs. apply zrange_split in E as (_ & Hh & _).
  apply bind_ok in Hs as (p & Hp & Hs). apply pyget_ok_iff in Hp; [|lia].
  destruct (_ >? _); [|injection Hs as <-; auto]. apply bind_ok in Hs as ([a b] & _ & Hs). apply pyset_ok in Hs as (L & ->); [|lia].
  eapply all_only_trans; [exact O|]. eapply all_only_upd; [exact Hp|]. repeat split.
Qed.

(** linking *)
Definition joins (p0 p3 nxt : list pinfo) (p : pinfo) (v : Z) : Prop :=
  exists r, pyget nxt v = Ok r /\ p_next r = NEXT_NONE /\
    (p_prev r = PREV_NONE \/ exists q0 q4, pyget p0 (p_next p) = Ok q0 /\ pyget p3 (p_prev r) = Ok q4 /\
       smooth_motion tp (angle_acc (p_x r) (p_x q4) (extrap (p_x r) (p_x p) (p_x q0)))).
Definition back_kept (p0 p3 nxt cur c : list pinfo) : Prop :=
  forall h q, nth_error c h = Some q -> exists p, nth_error cur h = Some p /\
    p_x q = p_x p /\ p_next q = p_next p /\ p_prio q = p_prio p /\ p_inlist q = p_inlist p /\ p_link q = p_link p /\
    ((p_prev q = p_prev p /\ p_final q = p_final p) \/ (0 < p_inlist p /\ nth_error (p_link p) 0 = Some (p_prev q) /\ joins p0 p3 nxt p (p_prev q))).
Definition next_only (nxt n : list pinfo) : Prop :=
  length n = length nxt /\
  forall k s, nth_error n k = Some s -> exists r, nth_error nxt k = Some r /\
    p_x s = p_x r /\ p_prev s = p_prev r /\ p_prio s = p_prio r /\ p_decis s = p_decis r /\ p_final s = p_final r /\
    p_link s = p_link r /\ p_inlist s = p_inlist r /\ (p_next s = p_next r \/ (p_next r = NEXT_NONE /\ 0 <= p_next s)).

Lemma pyget_length {A} (l l' : list A) i x : length l = length l' -> pyget l i = Ok x -> exists k y, pyidx (length l) i = Some k /\ pyget l' i = Ok y /\ nth_error l k = Some x /\ nth_error l' k = Some y.
Proof.
  intros L H. unfold pyget in *. rewrite <- L. destruct (pyidx (length l) i) as [k|] eqn:E; [|discriminate].
  pose proof (pyidx_lt _ _ _ E) as Lk. destruct (nth_error l k) as [a|] eqn:Ea; [|discriminate]. injection H as ->.
  destruct (nth_error l' k) as [b|] eqn:Eb; [|apply nth_error_None in Eb; lia]. exists k, b. auto.
Qed.
Lemma pyset_some {A} (l l' : list A) i v : pyset l i v = Ok l' -> exists k, pyidx (length l) i = Some k /\ l' = upd l k v.
Proof. unfold pyset. destruct (pyidx _ _) as [k|]; [|discriminate]. intros [= <-]. eauto. Qed.

Lemma back_link_joins p0 p3 num cur nxt cur' nxt' cnt :
  back_link_all extrap angle_acc tp p0 p3 num cur nxt = Ok (cur', nxt', cnt) ->
  back_kept p0 p3 nxt cur cur' /\ next_only nxt nxt'.
Proof.
  intros H. unfold back_link_all in H.
  apply (foldM_inv (fun _ '(c, n, _) => back_kept p0 p3 nxt cur c /\ next_only nxt n)) in H; [exact H| |].
  { split; [|split; auto]; intros h q Hq; exists q; repeat (split; [reflexivity || assumption|]); auto. }
  intros done h rest [[c n] k] [[c' n'] k'] Ez (HI & HN) Hs. apply zrange_split in Ez as (_ & Hh & _). unfold back_link_one in Hs.
  apply bind_ok in Hs as (p & Hp & Hs). apply pyget_ok_iff in Hp; [|lia].
  apply bind_ok in Hs as ([c1 n1] & Hc & Hs). apply bind_ok in Hs as (pp & _ & Hs). injection Hs as <- <- <-.
  rewrite Z.gtb_ltb in Hc. destruct (Z.ltb_spec 0 (p_inlist p)) as [Hi|_]; [|injection Hc as <- <-; auto].
  apply bind_ok in Hc as (v & Hv & Hc). apply pyget_ok_iff in Hv; [|lia]. change (Z.to_nat 0) with O in Hv.
  apply bind_ok in Hc as (d & Hd & Hc). apply bind_ok in Hc as (r & Hr & Hc).
  destruct HN as (LN & HN).
  destruct (pyget_length n nxt v r LN Hr) as (kr & r0 & Ekr & Hr0 & Nr & Nr0).
  destruct (HN kr r Nr) as (r0' & N0' & X1 & X2 & X3 & X4 & X5 & X6 & X7 & X8). assert (r0' = r0) as -> by congruence. clear N0'.
  destruct (HI _ _ Hp) as (p1 & P1 & P2 & P3 & P4 & P5 & P6 & P7).
  assert (TAKE : p_next r = NEXT_NONE ->
    (p_prev r = PREV_NONE \/ exists q0 q4, pyget p0 (p_next p) = Ok q0 /\ pyget p3 (p_prev r) = Ok q4 /\
       smooth_motion tp (angle_acc (p_x r) (p_x q4) (extrap (p_x r) (p_x p) (p_x q0)))) ->
    (do cur <- pyset c h (take_back p d v); do nxt <- pyset n v (set_next r h); Ok (cur, nxt)) = Ok (c1, n1) ->
    back_kept p0 p3 nxt cur c1 /\ next_only nxt n1).
  { intros HX HJ Hx. apply bind_ok in Hx as (c2 & Hc2 & Hx). apply bind_ok in Hx as (n2 & Hn2 & Hx). injection Hx as <- <-.
    assert (HX0 : p_next r0 = NEXT_NONE) by (destruct X8 as [X8|(X8 & X9)]; [congruence|exact X8]).
    split.
    - apply pyset_ok in Hc2 as (L & ->); [|lia]. intros h' q Hq.
      destruct (Nat.eq_dec h' (Z.to_nat h)) as [->|Nh].
      + rewrite nth_error_upd_eq in Hq by auto. injection Hq as <-. exists p1.
        cbn [take_back p_x p_next p_prio p_inlist p_link p_prev p_final]. repeat (split; [assumption|]). right.
        rewrite <- P5, <- P6. split; auto. split; auto. exists r0. split; auto. split; auto.
        rewrite <- X1, <- X2, <- P2, <- P3. exact HJ.
      + rewrite nth_error_upd_neq in Hq by auto. auto.
    - apply pyset_some in Hn2 as (kv & Ek & ->).
      assert (kv = kr) as -> by congruence.
      split; [now rewrite upd_length|]. intros k2 s Hs2. destruct (Nat.eq_dec k2 kr) as [->|Nk].
      + rewrite nth_error_upd_eq in Hs2 by (apply nth_error_Some; congruence). injection Hs2 as <-. exists r0.
        cbn [set_next p_x p_prev p_prio p_decis p_final p_link p_inlist p_next]. repeat (split; [assumption|]). right. split; auto. lia.
      + rewrite nth_error_upd_neq in Hs2 by auto. auto. }
  destruct ((p_prev r =? PREV_NONE) && (p_next r =? NEXT_NONE)) eqn:C1.
  { apply andb_true_iff in C1 as (C1 & C2). apply Z.eqb_eq in C1, C2. apply TAKE; auto. }
  destruct (negb (p_prev r =? PREV_NONE) && (p_next r =? NEXT_NONE)) eqn:C3; [|injection Hc as <- <-; split; [auto|split; auto]].
  apply andb_true_iff in C3 as (_ & C4). apply Z.eqb_eq in C4.
  apply bind_ok in Hc as (q0 & H0 & Hc). apply bind_ok in Hc as (q4 & H4 & Hc).
  destruct (angle_acc _ _ _) as [an ac] eqn:Ea. destruct (acceptable tp an ac) eqn:Eac; [|injection Hc as <- <-; split; [auto|split; auto]].
  apply TAKE; auto. right. exists q0, q4. split; auto. split; auto. rewrite Ea. now apply acceptable_plain in Eac.
Qed.

Lemma back_link_length p0 p3 num cur nxt cur' nxt' cnt :
  back_link_all extrap angle_acc tp p0 p3 num cur nxt = Ok (cur', nxt', cnt) -> length cur' = length cur.
Proof.
  intros H. apply (foldM_inv (fun _ '(c, _, _) => length c = length cur)) in H; [exact H|reflexivity|].
  intros done h rest [[c n] k] [[c' n'] k'] _ L Hs. unfold back_link_one in Hs.
  apply bind_ok in Hs as (p & _ & Hs). apply bind_ok in Hs as ([c1 n1] & Hc & Hs). apply bind_ok in Hs as (pp & _ & Hs). injection Hs as <- <- <-.
  destruct (_ >? _); [|injection Hc as <- <-; auto].
  apply bind_ok in Hc as (v & _ & Hc). apply bind_ok in Hc as (d & _ & Hc). apply bind_ok in Hc as (r & _ & Hc).
  assert (TAKE : (do cur <- pyset c h (take_back p d v); do nxt <- pyset n v (set_next r h); Ok (cur, nxt)) = Ok (c1, n1) -> length c1 = length cur).
  { intros Hx. apply bind_ok in Hx as (c2 & Hc2 & Hx). apply bind_ok in Hx as (n2 & Hn2 & Hx). injection Hx as <- <-.
    apply pyset_some in Hc2 as (q & _ & ->). now rewrite upd_length. }
  destruct (_ && _); [auto|]. destruct (negb _ && _); [|injection Hc as <- <-; auto].
  apply bind_ok in Hc as (q0 & _ & Hc). apply bind_ok in Hc as (q4 & _ & Hc).
  destruct (angle_acc _ _ _) as [an ac]. destruct (acceptable tp an ac); [|injection Hc as <- <-; auto]. auto.
Qed.

Theorem back_more buf0 b1 b2 b3 c1 c2 cnt :
  frame_ok b1 -> frame_ok b2 -> (forall p, In p (fr_path b1) -> p_inlist p = 0) ->
  trackback_step buf0 b1 b2 b3 = Ok (c1, c2, cnt) ->
  (forall h q, nth_error (fr_path c1) h = Some q -> exists p, nth_error (fr_path b1) h = Some p /\
    p_x q = p_x p /\ p_next q = p_next p /\ p_prio q = p_prio p /\
    ((p_prev q = p_prev p /\ p_final q = p_final p) \/ (p_prev p = PREV_NONE /\ 0 <= p_prev q /\ joins (fr_path buf0) (fr_path b3) (fr_path b2) p (p_prev q)))) /\
  next_only (fr_path b2) (fr_path c2) /\ length (fr_path c1) = length (fr_path b1).
Proof.
  intros F1 F2 HI H. unfold Model_track.trackback_step in H.
  apply bind_ok in H as ([d1 d2] & Ht & H). pose proof (trackback_all_only _ _ _ _ _ _ Ht) as (L1 & O1).
  apply (trackback_all_ok pixdist ncam ncam_ok) in Ht as (-> & A1 & A2 & A3); auto.
  apply bind_ok in H as (cur & Hd & H). apply bind_ok in H as ([[cur' nxt'] cnt'] & Hl & H). injection H as <- <- <-.
  pose proof F1 as (FN & _).
  assert (BR : forall h p, nth_error (fr_path d1) h = Some p -> backrow (Z.of_nat (length (fr_path b2))) p).
  { intros h p Hp. assert (h < length (fr_path d1))%nat by (apply nth_error_Some; congruence).
    destruct (nth_error (fr_path b1) h) as [p0|] eqn:E0; [|apply nth_error_None in E0; lia].
    destruct (A3 h p0 E0) as (r & R1 & R2 & R3 & R4). assert (r = p) as -> by congruence. split; auto. }
  pose proof Hd as Hd'. rewrite A1, FN, <- A2 in Hd'.
  apply (back_decide_ok psort psort_perm ncam ncam_ok (Z.of_nat (length (fr_path b2)))) in Hd' as (_ & BD); [|exact BR].
  apply back_decide_only in Hd as (L2 & O2). pose proof (back_link_length _ _ _ _ _ _ _ _ Hl) as L3.
  apply back_link_joins in Hl as (K & N). cbn [set_path fr_path].
  split; [|split; [exact N|congruence]]. intros h q Hq. destruct (K h q Hq) as (p2 & P2 & E1 & E2 & E3 & _ & _ & E4).
  destruct (O2 _ _ P2) as (p1 & P1 & U1 & U2 & U3 & U4 & U5). destruct (O1 _ _ P1) as (p & Pp & V1 & V2 & V3 & V4 & V5).
  exists p. split; auto. split; [congruence|]. split; [congruence|]. split; [congruence|]. destruct E4 as [(E4 & E5)|(E5 & E6 & E4)].
  - left. split; congruence.
  - right. destruct (BD _ _ P1) as (p2' & P2' & _ & (B1 & B2)). assert (p2' = p2) as -> by congruence.
    split; [rewrite <- V2, <- U2; apply B2; lia|]. split; [destruct B1 as (_ & _ & _ & B1); apply (B1 O) in E6; lia|]. destruct E4 as (r & R1 & R2 & R3). exists r. split; auto. split; auto.
    replace (p_next p) with (p_next p2) by congruence. replace (p_x p) with (p_x p2) by congruence. exact R3.
Qed.
End Back2.
