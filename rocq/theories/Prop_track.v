(** Properties C13-C22: tracking. *)
From Coq Require Import Permutation Sorted.
From Verif Require Import Base F64 Model_corr Model_cand Spec_cand Lib Model_track Spec_track
  Proof_track_search Proof_track_rank Proof_track_reg Proof_track_link Proof_track_step Proof_track_back Proof_track_cap
  Proof_track_add Proof_track_ex.
Local Open Scope Z_scope.

(** ===== C13: links are mutual =====
    [link_all] is the linking phase of a forward step; decision values are arbitrary (NaN included). *)
Theorem C13_linking_mutual : forall cur nxt, ready_weak cur nxt ->
  exists cur' nxt' cnt, link_all (Z.of_nat (length cur)) cur nxt = Ok (cur', nxt', cnt) /\
    length cur' = length cur /\ length nxt' = length nxt /\ mutual cur' nxt' /\
    (forall h p, nth_error cur h = Some p -> exists q, nth_error cur' h = Some q /\ same_but_next p q) /\
    (forall k r, nth_error nxt k = Some r -> exists s, nth_error nxt' k = Some s /\ same_but_prev r s).
Proof. exact link_mutual. Qed.
Print Assumptions C13_linking_mutual.

(** no particle is the successor, or the predecessor, of two particles *)
Theorem C13_injective : forall cur nxt, mutual cur nxt ->
  (forall h h' k : nat, next_of cur h = Z.of_nat k -> next_of cur h' = Z.of_nat k -> h = h') /\
  (forall k k' h : nat, prev_of nxt k = Z.of_nat h -> prev_of nxt k' = Z.of_nat h -> k = k').
Proof.
  intros cur nxt M. split; intros a b c H1 H2.
  - apply M in H1. apply M in H2. lia.
  - apply M in H1. apply M in H2. lia.
Qed.
Print Assumptions C13_injective.

Section C13.
(** for every camera geometry, image size, parameter set and sorting function *)
Variable psort : list (f64 * Z) -> list (f64 * Z).
Variable pixdist : f64 -> f64 -> f64 -> f64 -> f64.
Variables imx imy : Z.
Variable point_to_pixel : Z -> vec -> f64 * f64.
Variable searchquader : Z -> vec -> f64 * f64 * f64 * f64.
Variable moving : vec -> vec -> vec.
Variable extrap : vec -> vec -> vec -> vec.
Variable vec_subt : vec -> vec -> vec.
Variable vec_diff_norm : vec -> vec -> f64.
Variable angle_acc : vec -> vec -> vec -> f64 * f64.
Variable to_flat : Z -> f64 -> f64 -> f64 * f64.
Variable point_position : list (f64 * f64) -> vec.
Variable tp : tpar.
Variable vl : vol.

(** a whole forward step, on frames as they are read from disk (no links yet
    beyond the current frame): links are mutual, positions and predecessors of
    the current frame are kept, later frames only get new particles *)
Theorem C13_forward_step : (forall l, Permutation l (psort l)) ->
  forall ncam buf0 b1 b2 b3 c1 c2 c3 cnt, (1 <= ncam <= 4)%nat ->
  frame_ok b1 -> frame_ok b2 -> frame_ok b3 ->
  (forall p, In p (fr_path b1) -> p_next p = NEXT_NONE) ->
  (forall p, In p (fr_path b2) -> fresh_particle p) ->
  trackcorr_step psort pixdist (Z.of_nat ncam) imx imy point_to_pixel searchquader moving extrap vec_subt vec_diff_norm
    angle_acc to_flat point_position tp vl buf0 b1 b2 b3 = Ok (c1, c2, c3, cnt) ->
  mutual (fr_path c1) (fr_path c2) /\
  length (fr_path c1) = length (fr_path b1) /\
  (forall h p, nth_error (fr_path b1) h = Some p -> exists q, nth_error (fr_path c1) h = Some q /\ p_x q = p_x p /\ p_prev q = p_prev p) /\
  (forall p, In p (fr_path c2) -> p_next p = NEXT_NONE) /\
  (exists l, map p_x (fr_path c2) = map p_x (fr_path b2) ++ l) /\
  only_added b3 c3 /\ frame_ok c1 /\ frame_ok c2 /\ frame_ok c3.
Proof. intros HP ncam buf0 b1 b2 b3 c1 c2 c3 cnt Hn. now apply trackcorr_step_links. Qed.

(** a whole backward step: it completes links without breaking existing ones,
    and never adds a particle *)
Theorem C13_backward_step : (forall l, Permutation l (psort l)) ->
  forall ncam buf0 b1 b2 b3 c1 c2 cnt, (1 <= ncam <= 4)%nat ->
  frame_ok b1 -> frame_ok b2 ->
  (forall p, In p (fr_path b1) -> p_inlist p = 0) ->
  back_mutual (fr_path b1) (fr_path b2) ->
  trackback_step psort pixdist (Z.of_nat ncam) imx imy point_to_pixel searchquader moving extrap vec_subt vec_diff_norm
    angle_acc to_flat point_position tp vl buf0 b1 b2 b3 = Ok (c1, c2, cnt) ->
  back_mutual (fr_path c1) (fr_path c2) /\
  length (fr_path c1) = length (fr_path b1) /\ length (fr_path c2) = length (fr_path b2) /\
  (forall h p, nth_error (fr_path b1) h = Some p -> exists q, nth_error (fr_path c1) h = Some q /\ p_x q = p_x p /\
     p_next q = p_next p /\ (p_prev p <> PREV_NONE -> p_prev q = p_prev p)) /\
  (forall k r, nth_error (fr_path b2) k = Some r -> exists s, nth_error (fr_path c2) k = Some s /\ p_x s = p_x r /\
     p_inlist s = p_inlist r /\ p_prev s = p_prev r /\ (p_next r <> NEXT_NONE -> p_next s = p_next r)) /\
  (fr_num c2, fr_corr c2, fr_targ c2) = (fr_num b2, fr_corr b2, fr_targ b2).
Proof. intros HP ncam buf0 b1 b2 b3 c1 c2 cnt Hn. now apply trackback_step_links. Qed.
End C13.
Print Assumptions C13_forward_step.
Print Assumptions C13_backward_step.

Lemma two_ok k : frame_ok (two k).
Proof.
  split; [reflexivity|]. intros tl t Htl Ht. cbn in Htl.
  destruct Htl as [<-|[<-|[]]]; destruct Ht as [<-|[<-|[]]]; cbn; lia.
Qed.
Lemma two_fresh k p : In p (fr_path (two k)) -> fresh_particle p.
Proof. cbn. intros [<-|[<-|[]]]; split; reflexivity. Qed.

(** two particles, two cameras, three frames: both are linked *)
Example C13_case : (forall l, Permutation l (isort l)) /\ frame_ok (two 0) /\ frame_ok (two 1) /\ frame_ok (two 2) /\
  (forall p, In p (fr_path (two 0)) -> p_next p = NEXT_NONE) /\
  (forall p, In p (fr_path (two 1)) -> fresh_particle p) /\
  show (toy_step 2 false nofrm (two 0) (two 1) (two 2)) = Some ([0; 1], [0; 1], 2, 2).
Proof.
  split; [apply isort_perm|]. split; [apply two_ok|]. split; [apply two_ok|]. split; [apply two_ok|].
  split; [intros p Hp; apply (two_fresh 0 p Hp)|]. split; [apply two_fresh|]. vm_compute. reflexivity.
Qed.

(** backward: particle 0 of frame 1 has a successor but no predecessor yet *)
Definition bk1 : frame := frm [part 80 53 41 0 (-1) 0; part 80 63 43 0 1 1] [row 0 0; row 1 1] (fr_targ (two 1)).
Definition bk2 : frame := frm [part 80 50 40 0 (-1) (-2); part 80 60 42 0 (-1) 1] [row 0 0; row 1 1] (fr_targ (two 0)).
Example C13_case_back : frame_ok bk1 /\ frame_ok bk2 /\ (forall p, In p (fr_path bk1) -> p_inlist p = 0) /\
  back_mutual (fr_path bk1) (fr_path bk2) /\
  match toy_back 2 false (two 2) bk1 bk2 (two 3) with
  | Ok (a, b, n) => map p_prev (fr_path a) = [0; 1] /\ map p_next (fr_path b) = [0; 1]
  | Exn _ => False end.
Proof.
  assert (OK : forall f, fr_targ f = fr_targ (two 1) \/ fr_targ f = fr_targ (two 0) -> fr_num f = Z.of_nat (length (fr_path f)) -> frame_ok f).
  { intros f [E|E] H; split; auto; rewrite E; apply two_ok. }
  split; [apply OK; auto|]. split; [apply OK; auto|]. split; [cbn; intros p [<-|[<-|[]]]; reflexivity|].
  split; [|vm_compute; auto].
  intros [|[|h]] [|[|k]]; cbn; try lia; unfold prev_of, next_of; cbn; try (destruct h); try (destruct k); cbn; unfold PREV_NONE, NEXT_NONE; lia.
Qed.

(** ===== C14: conflicts are won by the smallest decision value ===== *)
Theorem C14_winner : forall cur nxt, ready cur nxt ->
  exists cur' nxt' cnt, link_all (Z.of_nat (length cur)) cur nxt = Ok (cur', nxt', cnt) /\
    (forall h k, next_of cur' h = Z.of_nat k <-> winner cur h k) /\
    (forall h, (forall k, ~ winner cur h k) -> next_of cur' h = NEXT_NONE) /\
    (forall h k, wants cur h k -> (k < length nxt)%nat -> exists w, winner cur w k) /\
    (forall k, (forall h, ~ wants cur h k) -> prev_of nxt' k = PREV_NONE).
Proof.
  intros cur nxt R. destruct (link_exact cur nxt R) as (a & b & c & H1 & H2 & H3 & H4 & H5 & H6 & H7 & H8 & _).
  exists a, b, c. auto.
Qed.
Print Assumptions C14_winner.

(** a particle with a candidate that ends without successor lost to one with a decision value not larger *)
Theorem C14_losers : forall cur nxt, ready cur nxt ->
  exists cur' nxt' cnt, link_all (Z.of_nat (length cur)) cur nxt = Ok (cur', nxt', cnt) /\
    forall h p, nth_error cur h = Some p -> next_of cur' h = NEXT_NONE -> 0 < p_inlist p ->
      exists w q, w <> h /\ nth_error cur w = Some q /\ next_of cur' w = p_next p /\ fle (p_final q) (p_final p) = true.
Proof.
  intros cur nxt R. destruct (link_exact cur nxt R) as (a & b & c & H1 & H2 & H3 & H4 & H5 & H6 & H7 & H8 & _).
  exists a, b, c. split; auto. intros h p Hp Hn Hi. destruct R as (R1 & _). pose proof (R1 h p Hp) as Rp.
  destruct (Z.ltb_spec 0 (p_inlist p)); [|lia]. destruct Rp as (Rk & Rn).
  set (k := Z.to_nat (p_next p)). assert (Ek : p_next p = Z.of_nat k) by (unfold k; lia).
  assert (W : wants cur h k) by (exists p; auto).
  destruct (H8 h k W ltac:(unfold k; lia)) as (w & Hw). pose proof Hw as (q & Q1 & (q' & Q1' & Q2 & Q3) & Q4).
  assert (q' = q) as -> by congruence.
  assert (N : w <> h). { intros ->. apply H5 in Hw. rewrite Hw in Hn. unfold NEXT_NONE in Hn. lia. }
  exists w, q. split; auto. split; auto. split; [rewrite Ek; now apply H5|].
  specialize (Q4 h p W Hp ltac:(auto)). pose proof (R1 w q Q1) as Rq. destruct (Z.ltb_spec 0 (p_inlist q)); [|lia]. destruct Rq as (_ & Rqn).
  destruct (h <? w)%nat; [now apply flt_fle|]. now apply flt_false_fle.
Qed.
Print Assumptions C14_losers.

Definition wanting (d : Z) (k : Z) : pinfo := mk_pinfo (fz 0, fz 0, fz 0) (-1) k 4 [fz d] (fz d) [k] 1.
(** particles 0 and 1 both want 0; particle 2 wants 1 *)
Definition rivals : list pinfo := [wanting 2 0; wanting 1 0; wanting 5 1].
Definition goals : list pinfo := [pt80 0 0 0; pt80 1 0 0].
Lemma rivals_ready : ready rivals goals.
Proof.
  split.
  - intros [|[|[|h]]] p H; simpl in H; try (injection H as <-; cbn; split; [lia|reflexivity]). destruct h; discriminate.
  - intros [|[|k]] r H; simpl in H; try (injection H as <-; reflexivity). destruct k; discriminate.
Qed.
Example C14_case : ready rivals goals /\
  match link_all 3 rivals goals with Ok (a, b, n) => map p_next a = [-2; 0; 1] /\ map p_prev b = [1; 2] | Exn _ => False end.
Proof. split; [exact rivals_ready|vm_compute; auto]. Qed.

(** ===== C15: the reported number of links =====
    Natural expectation: the count equals the number of particles with a successor.
    The code counts a particle when its turn comes and never takes the count
    back when the link is stolen later. *)
Theorem C15_count_exact : forall cur nxt, ready cur nxt ->
  exists cur' nxt' cnt l, link_all (Z.of_nat (length cur)) cur nxt = Ok (cur', nxt', cnt) /\
    NoDup l /\ (forall h, In h l <-> exists k, leads cur h k) /\ cnt = Z.of_nat (length l) /\
    (forall h k, next_of cur' h = Z.of_nat k -> In h l).
Proof.
  intros cur nxt R. destruct (link_exact cur nxt R) as (a & b & c & H1 & H2 & H3 & H4 & H5 & H6 & H7 & H8 & _ & _ & (l & L1 & L2 & L3)).
  exists a, b, c, l. split; auto. split; auto. split; auto. split; auto.
  intros h k Hk. apply L2. exists k. apply winner_leads. now apply H5.
Qed.
Print Assumptions C15_count_exact.

Theorem C15_count_refuted : exists cur nxt cur' nxt' cnt, ready cur nxt /\
  link_all (Z.of_nat (length cur)) cur nxt = Ok (cur', nxt', cnt) /\
  cnt = 3 /\ length (filter (fun p => negb (p_next p =? NEXT_NONE)) cur') = 2%nat.
Proof.
  exists rivals, goals.
  destruct (link_all (Z.of_nat (length rivals)) rivals goals) as [[[a b] c]|e] eqn:E; vm_compute in E; [|discriminate].
  injection E as <- <- <-. eexists _, _, _. split; [exact rivals_ready|]. split; [reflexivity|]. split; vm_compute; reflexivity.
Qed.
Print Assumptions C15_count_refuted.

(** ===== C16: candsearch_in_pix =====
    [pixdist] is any distance function *)
Theorem C16_nearest : forall pixdist nf num cx cy dl dr du dd imx imy,
  num = Z.of_nat (length nf) -> y_ascending nf -> popcount (num / 2) <= 11 ->
  let h := target_hit pixdist tracked nf cx cy dl dr du dd imx imy in
  (forall j d, h j d -> flt d f1e20 = true) ->
  exists p, candsearch_in_pix pixdist nf num cx cy dl dr du dd imx imy = Ok p /\
    (centre_on_image cx cy imx imy -> nearest4 h p) /\
    (~ centre_on_image cx cy imx imy -> p = [-1; -1; -1; -1]).
Proof.
  intros pixdist nf num cx cy dl dr du dd imx imy Hn Hy Hp h Hd.
  destruct (candsearch_exact pixdist nf num cx cy dl dr du dd imx imy Hn Hy Hp) as (p & H1 & H2).
  { intros j d H. apply (Hd j). now apply hit_plain. }
  exists p. split; auto. split; intros HC.
  - apply centre_plain in HC. rewrite HC in H2. eapply nearest4_ext; [|exact H2]. intros; apply hit_plain.
  - destruct (center_in_image cx cy imx imy) eqn:E; auto. apply centre_plain in E. contradiction.
Qed.
Print Assumptions C16_nearest.

Definition five : list target := [tg 50 42 0; tg 55 44 (-1); tg 48 50 1; tg 50 53 2; tg 57 59 3; tg 44 60 4].
Lemma ascending_dec l : forallb (fun i => forallb (fun j => match nth_error l i, nth_error l j with Some a, Some b => if (i <=? j)%nat then fle a b else true | _, _ => true end) (seq 0 (length l))) (seq 0 (length l)) = true -> ascending l.
Proof.
  intros H i j a b Hij Ha Hb. rewrite forallb_forall in H.
  assert (Li : (i < length l)%nat) by (apply nth_error_Some; congruence). assert (Lj : (j < length l)%nat) by (apply nth_error_Some; congruence).
  assert (Si : In i (seq 0 (length l))) by (apply in_seq; lia). assert (Sj : In j (seq 0 (length l))) by (apply in_seq; lia).
  specialize (H i Si). rewrite forallb_forall in H. specialize (H j Sj).
  rewrite Ha, Hb in H. destruct (Nat.leb_spec i j); auto. lia.
Qed.
Example C16_case : y_ascending five /\
  (forall j d, target_hit toy_dist tracked five (fz 50) (fz 50) (fz 20) (fz 20) (fz 20) (fz 20) 1000 1000 j d -> flt d f1e20 = true) /\
  centre_on_image (fz 50) (fz 50) 1000 1000 /\
  candsearch_in_pix toy_dist five 6 (fz 50) (fz 50) (fz 20) (fz 20) (fz 20) (fz 20) 1000 1000 = Ok [2; 3; 0; 4].
Proof.
  split; [apply ascending_dec; vm_compute; reflexivity|].
  split; [|split; [vm_compute; auto|vm_compute; reflexivity]].
  intros j d (t & J & Ht & _ & _ & _ & ->). destruct (Z.to_nat j) as [|[|[|[|[|[|k]]]]]]; simpl in Ht; try (injection Ht as <-; vm_compute; reflexivity).
  destruct k; discriminate.
Qed.

(** The property asks for every target nearer than the last one returned; of
    two targets at exactly the same distance only the first is kept, so fewer
    than four are returned although four are in the window *)
Theorem C16_ties_refuted : exists nf, y_ascending nf /\
  candsearch_in_pix toy_dist nf 2 (fz 50) (fz 50) (fz 20) (fz 20) (fz 20) (fz 20) 1000 1000 = Ok [0; -1; -1; -1] /\
  target_hit toy_dist tracked nf (fz 50) (fz 50) (fz 20) (fz 20) (fz 20) (fz 20) 1000 1000 1 (fz 5).
Proof.
  exists [tg 45 50 0; tg 55 50 1]. split; [apply ascending_dec; vm_compute; reflexivity|]. split; [vm_compute; reflexivity|].
  exists (tg 55 50 1). vm_compute. repeat split; auto; discriminate.
Qed.
Print Assumptions C16_ties_refuted.

(** ===== C17: candsearch_in_pix_rest ===== *)
Theorem C17_nearest_unused : forall pixdist nf num cx cy dl dr du dd imx imy,
  num = Z.of_nat (length nf) -> y_ascending nf -> popcount (num / 2) <= 11 ->
  let h := target_hit pixdist free nf cx cy dl dr du dd imx imy in
  (forall j d, h j d -> flt d f1e20 = true) ->
  exists cnt p, candsearch_in_pix_rest pixdist nf num cx cy dl dr du dd (-1) imx imy = Ok (cnt, p) /\
    ((cnt = 0 /\ p = -1 /\ (centre_on_image cx cy imx imy -> forall j d, ~ h j d)) \/
     (cnt = 1 /\ centre_on_image cx cy imx imy /\
      exists d, h p d /\
        forall j d', h j d' -> flt d d' = true \/ (feq d d' = true /\ p <= j))).
Proof.
  intros pixdist nf num cx cy dl dr du dd imx imy Hn Hy Hp h Hd.
  destruct (candsearch_rest_exact pixdist nf num cx cy dl dr du dd imx imy Hn Hy Hp) as (c & p & H1 & H2).
  { intros j d H. apply (Hd j). now apply hit_plain. }
  exists c, p. split; auto. destruct H2 as [(H2 & H3 & H4)|(H2 & H3 & d & H4 & H5)]; [left|right].
  - split; auto. split; auto. intros HC j d Hh. apply centre_plain in HC. apply (H4 HC j d). now apply hit_plain.
  - split; auto. split; [now apply centre_plain|]. exists d. split; [now apply hit_plain|].
    intros j d' Hh. apply H5. now apply hit_plain.
Qed.
Print Assumptions C17_nearest_unused.
Example C17_case : y_ascending five /\
  candsearch_in_pix_rest toy_dist five 6 (fz 50) (fz 50) (fz 20) (fz 20) (fz 20) (fz 20) (-1) 1000 1000 = Ok (1, 1).
Proof. split; [apply ascending_dec; vm_compute; reflexivity|vm_compute; reflexivity]. Qed.

(** ===== C18: registration of the found candidates =====
    Natural expectation: slots for which nothing was found stay empty.  The code
    compares with -999 while the search pads with -1, so an unfilled slot takes
    the last target of the list. *)
Theorem C18_register_exact : forall pixdist nf num cam cx cy dl dr du dd imx imy pts base pts',
  0 <= base -> 0 <= cam ->
  register_closest_neighbs pixdist nf num cam cx cy dl dr du dd imx imy pts base = Ok pts' ->
  exists p, candsearch_in_pix pixdist nf num cx cy dl dr du dd imx imy = Ok p /\
    (Z.to_nat base + 4 <= length pts)%nat /\ length pts' = length pts /\
    (forall i f, nth_error pts i = Some f -> ~ (Z.to_nat base <= i < Z.to_nat base + 4)%nat -> nth_error pts' i = Some f) /\
    (forall i f, (i < 4)%nat -> nth_error pts (Z.to_nat base + i) = Some f ->
       exists g, nth_error pts' (Z.to_nat base + i) = Some g /\ slot_after nf p cam f g i).
Proof. intros. now apply register_ok. Qed.
Print Assumptions C18_register_exact.

(** for found candidates (not -1) the slot holds that target's number *)
Theorem C18_found_slots : forall nf p cam f g i c, slot_after nf p cam f g i -> nth_error p i = Some c -> c <> -1 ->
  exists t, nth_error nf (Z.to_nat c) = Some t /\ ftnr g = t_tnr t /\ nth_error (whichcam g) (Z.to_nat cam) =
    (if (Z.to_nat cam <? length (whichcam f))%nat then Some 1 else None).
Proof.
  intros nf p cam f g i c (c' & t & H1 & H2 & H3 & H4 & H5) Hc N. assert (c' = c) as -> by congruence.
  unfold cand_target in H2. destruct (Z.eqb_spec c (-1)); [contradiction|]. exists t. split; auto. split; auto.
  rewrite H5, nth_error_upd, Nat.eqb_refl. destruct (_ <? _)%nat; auto.
Qed.
Print Assumptions C18_found_slots.

Theorem C18_unfilled_refuted : exists nf pts', y_ascending nf /\
  candsearch_in_pix toy_dist nf 2 (fz 50) (fz 50) (fz 10) (fz 10) (fz 10) (fz 10) 1000 1000 = Ok [0; -1; -1; -1] /\
  register_closest_neighbs toy_dist nf 2 0 (fz 50) (fz 50) (fz 10) (fz 10) (fz 10) (fz 10) 1000 1000 (repeat empty_fp 4) 0 = Ok pts' /\
  map ftnr pts' = [5; 7; 7; 7] /\ map whichcam pts' = repeat [1; 0; 0; 0] 4.
Proof.
  exists [tg 52 50 5; tg 900 900 7]. eexists. split; [apply ascending_dec; vm_compute; reflexivity|].
  split; [vm_compute; reflexivity|]. split; [vm_compute; reflexivity|]. split; vm_compute; reflexivity.
Qed.
Print Assumptions C18_unfilled_refuted.

(** and for a camera without targets the call raises IndexError, always *)
Theorem C18_no_targets_refuted : forall pixdist num cam cx cy dl dr du dd imx imy pts base p,
  0 <= base < Z.of_nat (length pts) ->
  (forall f, In f pts -> 0 <= cam < Z.of_nat (length (whichcam f))) ->
  candsearch_in_pix pixdist [] num cx cy dl dr du dd imx imy = Ok p ->
  register_closest_neighbs pixdist [] num cam cx cy dl dr du dd imx imy pts base = Exn IndexError.
Proof. exact register_no_targets. Qed.
Print Assumptions C18_no_targets_refuted.
Example C18_no_targets_case : candsearch_in_pix toy_dist [] 0 (fz 50) (fz 50) (fz 10) (fz 10) (fz 10) (fz 10) 1000 1000 = Ok [-1; -1; -1; -1].
Proof. vm_compute. reflexivity. Qed.

(** ===== C19: ranking of candidates =====
    Natural expectation: the distinct candidates seen by two or more cameras, each
    with its number of cameras, in descending order.  Proved exactly: which
    ones survive, in which order, with which count. *)
Theorem C19_sort_exact : forall ncam pts, (1 <= ncam)%nat -> registered ncam pts ->
  let ids := map ftnr pts in
  exists d out, sort_candidates_by_freq pts (Z.of_nat ncam) = Ok (Z.of_nat d, out) /\
    length out = length pts /\
    (forall k f, nth_error out k = Some f ->
       if (k <? d)%nat then ftnr f <> -1 /\ freq f = votes ncam ids (ftnr f) /\ 1 <= freq f /\ survives ncam ids (ftnr f)
       else ftnr f = -1 /\ freq f = 0) /\
    (forall i j f g, (i <= j)%nat -> nth_error out i = Some f -> nth_error out j = Some g -> freq g <= freq f) /\
    (forall v, 2 <= votes ncam ids v -> survives ncam ids v -> exists k f, nth_error out k = Some f /\ ftnr f = v) /\
    (forall f v, nth_error out 0 = Some f -> In v ids -> votes ncam ids v <= freq f) /\
    (forall k f, nth_error out k = Some f -> freq f = 1 -> d = 1%nat).
Proof. intros. now apply sort_exact. Qed.
Print Assumptions C19_sort_exact.

(** the candidates a whole search volume yields *)
Theorem C19_volume : forall pixdist ncam imx imy searchquader center proj frm w, (1 <= ncam <= 4)%nat ->
  sorted_candidates_in_volume pixdist (Z.of_nat ncam) imx imy searchquader center proj frm = Ok w ->
  exists ids, length ids = (4 * ncam)%nat /\
    (forall c, (c < ncam)%nat -> cam_slots pixdist imx imy searchquader center proj frm c (firstn 4 (skipn (4 * c) ids))) /\
    ranking ncam ids w.
Proof. intros. now apply volume_exact. Qed.
Print Assumptions C19_volume.

(** every candidate that does not survive is lost, however many cameras saw it *)
Theorem C19_lost_refuted : forall ncam pts v, (1 <= ncam)%nat -> registered ncam pts ->
  v <> -1 -> ~ survives ncam (map ftnr pts) v ->
  exists d out, sort_candidates_by_freq pts (Z.of_nat ncam) = Ok (d, out) /\ ~ In v (map ftnr out).
Proof.
  intros ncam pts v Hn HR Hv HS. destruct (sort_exact ncam pts Hn HR) as (d & out & E & L & P1 & _).
  exists (Z.of_nat d), out. split; auto. intros H. apply in_map_iff in H as (f & Hf & Hin).
  apply In_nth_error in Hin as (k & Hk). specialize (P1 k f Hk). rewrite Hf in P1. destruct (k <? d)%nat; tauto.
Qed.
Print Assumptions C19_lost_refuted.

(** cameras 0 and 1 see 5 and 6, camera 2 sees 6 only: 5 (two cameras) is lost *)
Definition seen56 : list foundpix :=
  map (fun '(c, v) => mk_fp v 0 (upd [0; 0; 0; 0] c (if v =? -1 then 0 else 1)))
    (combine [0; 0; 0; 0; 1; 1; 1; 1; 2; 2; 2; 2]%nat [5; 6; -1; -1; 5; 6; -1; -1; 6; -1; -1; -1]).
Lemma seen56_reg : registered 3 seen56.
Proof.
  split; [reflexivity|]. intros f Hf. unfold seen56 in Hf. apply In_nth_error in Hf as (k & Hk).
  do 12 (destruct k as [|k]; [vm_compute in Hk; injection Hk as <-; split; [reflexivity|]; split; [vm_compute; lia|];
    intros [|[|[|j]]] Hj H1 Hn; try lia; vm_compute in H1; try discriminate; vm_compute; reflexivity|]).
  destruct k; discriminate.
Qed.
Example C19_lost_case : registered 3 seen56 /\ votes 3 (map ftnr seen56) 5 = 2 /\ ~ survives 3 (map ftnr seen56) 5 /\
  match sort_candidates_by_freq seen56 3 with Ok (d, out) => d = 1 /\ map ftnr (firstn 2 out) = [6; -1] | Exn _ => False end.
Proof.
  split; [exact seen56_reg|]. split; [vm_compute; reflexivity|]. split; [|vm_compute; auto].
  intros (k & Hk & H). assert (k < 8)%nat.
  { assert (L : (k < 12)%nat) by (apply (nth_error_Some (map ftnr seen56)); congruence).
    do 12 (destruct k as [|k]; [vm_compute in Hk; try discriminate; try lia|]). lia. }
  specialize (H 8%nat 6 ltac:(lia) eq_refl). vm_compute in H. auto.
Qed.

(** duplicates: particle 1 appears in thirteen rows of the ranking *)
Theorem C19_duplicates_refuted : exists frm w, frame_ok frm /\
  toy_volume 4 (fz 50, fz 40, fz 0) (repeat (fz 50, fz 40) 4) frm = Ok w /\
  map (fun f => (ftnr f, freq f)) w = (0, 3) :: repeat (1, 2) 13 ++ [(2, 2); (-1, 0)].
Proof.
  exists (dup 80 false). eexists. split; [|split; vm_compute; reflexivity].
  split; [reflexivity|]. intros tl t Htl Ht. cbn in Htl. destruct Htl as [<-|[<-|[<-|[<-|[]]]]]; cbn in Ht; intuition (subst; cbn; lia).
Qed.
Print Assumptions C19_duplicates_refuted.

(** and a ranking that fills all rows has no end marker: the loop over it runs
    off the end and the whole step raises IndexError *)
Theorem C19_no_end_marker_refuted : exists b1 b2 b3 w,
  toy_volume 4 (fz 50, fz 40, fz 0) (repeat (fz 50, fz 40) 4) b2 = Ok w /\ (forall f, In f w -> ftnr f <> -1) /\
  toy_step 4 false nofrm b1 b2 b3 = Exn IndexError.
Proof.
  exists (cur1 80), (dup 80 true), (frm [] [] (repeat [tg 500 500 (-1)] 4)). eexists.
  split; [vm_compute; reflexivity|]. split; [|vm_compute; reflexivity].
  intros f Hf. cbn in Hf. intuition (subst; discriminate).
Qed.
Print Assumptions C19_no_end_marker_refuted.
(** with one row less the same step succeeds *)
Example C19_end_marker_case : match toy_step 4 false nofrm (cur1 80) (dup 80 false) (frm [] [] (repeat [tg 500 500 (-1)] 4)) with Ok _ => True | Exn _ => False end.
Proof. vm_compute. exact I. Qed.

(** ===== C20: the candidate buffer =====
    Natural expectation: 80 slots suffice.  Proved: 4n(4n+1) slots suffice for n
    cameras (72 for two), i.e. with at least that many slots the search for a
    particle behaves exactly as with any larger buffer. *)
Theorem C20_capacity : forall pixdist ncam imx imy point_to_pixel searchquader moving extrap vec_subt vec_diff_norm
    angle_acc to_flat point_position tp vl extra cap,
  (1 <= ncam <= 4)%nat -> 4 * Z.of_nat ncam * (4 * Z.of_nat ncam + 1) <= cap ->
  let run := track_one pixdist (Z.of_nat ncam) imx imy point_to_pixel searchquader moving extrap vec_subt vec_diff_norm
    angle_acc to_flat point_position tp vl in
  forall buf0 b1 b2 b3 h,
  (forall p, nth_error (fr_path b1) (Z.to_nat h) = Some p ->
     cap <= Z.of_nat (length (p_decis p)) /\ cap <= Z.of_nat (length (p_link p))) ->
  0 <= h ->
  run buf0 (roomier_frame extra b1, b2, b3) h =
    on_ok (fun '(c1, c2, c3) => (roomier_frame extra c1, c2, c3)) (run buf0 (b1, b2, b3) h) /\
  (forall c1 c2 c3, run buf0 (b1, b2, b3) h = Ok (c1, c2, c3) ->
     exists p, nth_error (fr_path c1) (Z.to_nat h) = Some p /\
       0 <= p_inlist p <= 4 * Z.of_nat ncam * (4 * Z.of_nat ncam + 1)).
Proof.
  intros pixdist ncam imx imy ptp sq mv ex vs vd aa tf pp tp vl extra cap Hn Hc run buf0 b1 b2 b3 h HL Hh.
  exact (track_one_sim extra cap pixdist ncam Hn imx imy ptp sq mv ex vs vd aa tf pp tp vl buf0 b1 b2 b3 h Hc HL Hh).
Qed.
Print Assumptions C20_capacity.
(** two cameras: the 80 slots are enough *)
Example C20_two_cameras : 4 * Z.of_nat 2 * (4 * Z.of_nat 2 + 1) <= POSI /\
  (forall p, In p (fr_path (two 0)) -> POSI <= Z.of_nat (length (p_decis p)) /\ POSI <= Z.of_nat (length (p_link p))) /\
  match toy_one 2 false nofrm (two 0, two 1, two 2) 0 with Ok (a, _, _) => map p_inlist (fr_path a) = [3; 0] | Exn _ => False end.
Proof. split; [vm_compute; discriminate|]. split; [cbn; intros p [<-|[<-|[]]]; cbn; unfold POSI; lia|]. vm_compute. reflexivity. Qed.

(** four cameras: 80 slots overflow (IndexError), where a larger buffer takes 225 candidates *)
Theorem C20_overflow_refuted : exists b1 b2 b3,
  (forall p, In p (fr_path b1) -> Z.of_nat (length (p_decis p)) = POSI /\ Z.of_nat (length (p_link p)) = POSI) /\
  toy_one 4 false nofrm (b1, b2, b3) 0 = Exn IndexError /\
  exists c1 c2 c3, toy_one 4 false nofrm (roomier_frame 220 b1, b2, b3) 0 = Ok (c1, c2, c3) /\ map p_inlist (fr_path c1) = [225].
Proof.
  exists (cur1 80), (dup 80 false), dup3. split; [cbn; intros p [<-|[]]; split; reflexivity|].
  split; [vm_compute; reflexivity|].
  assert (V : match toy_one 4 false nofrm (roomier_frame 220 (cur1 80), dup 80 false, dup3) 0 with
    | Ok (c1, _, _) => map p_inlist (fr_path c1) = [225] | Exn _ => False end) by (vm_compute; reflexivity).
  destruct (toy_one 4 false nofrm (roomier_frame 220 (cur1 80), dup 80 false, dup3) 0) as [[[c1 c2] c3]|e]; [|destruct V].
  exists c1, c2, c3. split; [reflexivity|exact V].
Qed.
Print Assumptions C20_overflow_refuted.

(** ===== C21: sort =====
    Python's sorted() is any function that permutes its argument and orders lists without NaN. *)
Theorem C21_sort : forall psort (le : f64 * Z -> f64 * Z -> Prop),
  (forall l, Permutation l (psort l)) ->
  (forall l, (forall x, In x l -> is_nan (fst x) = false) -> StronglySorted le (psort l)) ->
  forall n a b, 0 < n <= Z.of_nat (length a) -> n <= Z.of_nat (length b) ->
  (forall d, In d (firstn (Z.to_nat n) a) -> is_nan d = false) ->
  exists a' b', sort_links psort n a b = Ok (a', b') /\ length a' = length a /\ length b' = length b /\
    let k := Z.to_nat n in
    StronglySorted le (combine (firstn k a') (firstn k b')) /\
    Permutation (combine (firstn k a) (firstn k b)) (combine (firstn k a') (firstn k b')) /\
    skipn k a' = skipn k a /\ skipn k b' = skipn k b.
Proof.
  intros psort le HP HS n a b Ha Hb NN. destruct (sort_links_ok psort HP n a b Ha Hb) as (a' & b' & E & L1 & L2 & C & S1 & S2).
  exists a', b'. split; auto. split; auto. split; auto. cbv zeta. rewrite C. split; auto.
  apply HS. intros [d v] Hx. apply in_combine_l in Hx. auto.
Qed.
Print Assumptions C21_sort.
Theorem C21_empty : forall psort a b, (forall l, Permutation l (psort l)) -> sort_links psort 0 a b = Exn ValueError.
Proof.
  intros psort a b HP. unfold sort_links. simpl. destruct (psort []) eqn:E; auto.
  pose proof (HP []) as H. rewrite E in H. apply Permutation_nil in H. discriminate.
Qed.
Print Assumptions C21_empty.
Example C21_case : sort_links isort 3 [fz 3; fz 1; fz 2; fz 0] [7; 8; 9; 1] = Ok ([fz 1; fz 2; fz 3; fz 0], [8; 9; 7; 1]).
Proof. vm_compute. reflexivity. Qed.

(** ===== C22: adding a particle =====
    Natural expectation: one particle without links is appended, the chosen target of
    each camera gets its number and no other target changes, its correspondence
    row holds the chosen targets, other rows are unchanged.  The appended path
    entry and the tags of the cameras that saw the particle are right
    (C22_path, C22_tags); the other cameras' targets and the
    correspondence rows are not. *)
Theorem C22_path : forall nc frm pos inds frm', 0 <= nc ->
  add_particle nc frm pos inds = Ok frm' ->
  exists p, fr_path frm' = fr_path frm ++ [p] /\ fr_num frm' = fr_num frm + 1 /\
    p_x p = pos /\ p_prev p = -1 /\ p_next p = -2 /\ p_prio p = 2 /\ p_final p = f_of_Z 0 /\ p_inlist p = 0 /\ Z.of_nat (length (p_decis p)) = 80 /\ Z.of_nat (length (p_link p)) = 80.
Proof.
  intros nc frm pos inds frm' Hn H. destruct (add_particle_exact nc frm pos inds frm' Hn H) as (A & B & C & D & E & _).
  exists (new_pinfo pos). repeat (split; [auto|]). cbn [new_pinfo p_link p_decis]. now rewrite repeat_length.
Qed.
Print Assumptions C22_path.

Theorem C22_tags : forall nc frm pos inds frm', 0 <= nc ->
  add_particle nc frm pos inds = Ok frm' ->
  (forall c, nc <= Z.of_nat c -> nth_error (fr_targ frm') c = nth_error (fr_targ frm) c) /\
  forall c (ix : nat), Z.of_nat c < nc -> nth_error inds c = Some (Z.of_nat ix) ->
  exists tl tl' t t', nth_error (fr_targ frm) c = Some tl /\ nth_error (fr_targ frm') c = Some tl' /\
    nth_error tl ix = Some t /\ nth_error tl' ix = Some t' /\
    t_tnr t' = fr_num frm /\ t_pnr t' = t_pnr t /\ t_x t' = t_x t /\ t_y t' = t_y t /\
    t_n t' = t_n t /\ t_nx t' = t_nx t /\ t_ny t' = t_ny t /\ t_sumg t' = t_sumg t /\
    (forall j, j <> ix -> nth_error tl' j = nth_error tl j).
Proof.
  intros nc frm pos inds frm' Hn H. destruct (add_particle_targets nc frm pos inds frm' Hn H) as (A & B). split; auto.
  intros c ix Hc Hi. specialize (B c (Z.of_nat ix) Hc Hi).
  destruct (Z.eqb_spec (Z.of_nat ix) PT_UNUSED) as [E|_]; [unfold PT_UNUSED in E; lia|].
  destruct B as (tl & t & B1 & B2). destruct (Z.ltb_spec (Z.of_nat ix) 0); [lia|]. rewrite Nat2Z.id in B2.
  cbv zeta in B2. destruct B2 as (B2 & B3). exists tl, (upd tl ix (set_tnr t (fr_num frm))), t, (set_tnr t (fr_num frm)).
  assert (L : (ix < length tl)%nat) by (apply nth_error_Some; congruence).
  repeat (split; [first [assumption|reflexivity|apply nth_error_upd_eq; assumption]|]).
  intros j Hj. apply nth_error_upd_neq. auto.
Qed.
Print Assumptions C22_tags.

(** a camera in which nothing was found is given as -1, which the code takes for
    the last target: that target, whatever it belonged to, is given away *)
Theorem C22_unseen_camera_refuted : forall nc frm pos inds frm', 0 <= nc ->
  add_particle nc frm pos inds = Ok frm' ->
  forall c, Z.of_nat c < nc -> nth_error inds c = Some (-1) ->
  exists tl tl' t t', nth_error (fr_targ frm) c = Some (tl ++ [t]) /\ nth_error (fr_targ frm') c = Some tl' /\
    tl' = tl ++ [t'] /\ t_x t' = t_x t /\ t_y t' = t_y t /\ t_tnr t' = fr_num frm.
Proof.
  intros nc frm pos inds frm' Hn H c Hc Hi. destruct (add_particle_targets nc frm pos inds frm' Hn H) as (_ & B).
  specialize (B c (-1) Hc Hi). cbn [Z.eqb] in B. destruct B as (tl & t & B1 & B2). cbn [Z.ltb Z.compare] in B2. cbv zeta in B2.
  destruct B2 as (B2 & B3). destruct tl as [|z tl _] using rev_ind; [destruct (Z.to_nat _); discriminate|].
  assert (E : Z.to_nat (Z.of_nat (length (tl ++ [z])) + -1) = length tl) by (rewrite app_length; simpl; lia).
  rewrite E in B2, B3. rewrite nth_error_app2, Nat.sub_diag in B2 by lia. injection B2 as ->.
  exists tl, (tl ++ [set_tnr t (fr_num frm)]), t, (set_tnr t (fr_num frm)). split; auto. split; [|auto].
  rewrite B3. f_equal. clear. induction tl; cbn; congruence.
Qed.
Print Assumptions C22_unseen_camera_refuted.
(** it happens in a run: three cameras, a particle is added from the first two;
    the only target of camera 2 is far away and belongs to particle 0 *)
Example C22_unseen_camera_case :
  let b k := frm [pt80 (50 + 3 * k) (40 + k) 0] [mk_corres 1 [0; 0; 0; -1]] (repeat [tg (50 + 3 * k) (40 + k) 0] 3) in
  let far := frm [pt80 700 700 0] [mk_corres 1 [1; 1; 0; -1]; mk_corres 1 [1; 1; 0; -1]; mk_corres 1 [1; 1; 0; -1]]
    [[tg 59 43 (-1); tg 700 700 0]; [tg 59 43 (-1); tg 700 700 0]; [tg 700 700 0]] in
  match toy_step 3 true nofrm (b 1) (b 2) far with
  | Ok (c1, c2, c3, n) => map p_x (fr_path c3) = [(fz 700, fz 700, fz 0); (fz 59, fz 43, fzero)] /\
      map (map t_tnr) (fr_targ far) = [[-1; 0]; [-1; 0]; [0]] /\
      map (map t_tnr) (fr_targ c3) = [[1; 0]; [1; 0]; [1]] | Exn _ => False end.
Proof. vm_compute. auto. Qed.

(** what happens to the correspondence rows: the rows with the numbers of the
    cameras are overwritten, the new row is a copy of row 0, all row numbers
    become the new particle's *)
Theorem C22_rows_refuted : forall nc frm pos inds frm', 0 <= nc ->
  add_particle nc frm pos inds = Ok frm' ->
  (forall c, Z.of_nat c < nc -> exists ix r, nth_error inds c = Some ix /\ nth_error (fr_corr frm') c = Some r /\ co_p r = new_p ix) /\
  (forall i r, nc <= Z.of_nat i -> nth_error (fr_corr frm) i = Some r -> exists r', nth_error (fr_corr frm') i = Some r' /\ co_p r' = co_p r) /\
  (nc <= Z.of_nat (length (fr_corr frm)) -> forall r0, nth_error (fr_corr frm) 0 = Some r0 ->
     exists r', nth_error (fr_corr frm') (length (fr_corr frm)) = Some r' /\ co_p r' = co_p r0) /\
  ((exists c ix, Z.of_nat c < nc /\ nth_error inds c = Some ix /\ ix <> PT_UNUSED) ->
     forall r, In r (fr_corr frm') -> co_nr r = fr_num frm).
Proof.
  intros nc frm pos inds frm' Hn H. destruct (add_particle_exact nc frm pos inds frm' Hn H) as (A & B & C & D & E & F & G & I & J). auto.
Qed.
Print Assumptions C22_rows_refuted.

(** three particles, two cameras; a fourth at targets 3 and 3: rows 0 and 1 of
    the old particles are destroyed, row 3 is not the new particle's row *)
Definition three : frame :=
  frm [pt80 1 1 0; pt80 2 2 0; pt80 3 3 0] [row 0 0; row 1 1; row 2 2]
    (repeat [tg 1 1 0; tg 2 2 1; tg 3 3 2; tg 4 4 (-1)] 2).
Theorem C22_refuted : exists frm frm', add_particle 2 frm (fz 4, fz 4, fz 0) [3; 3] = Ok frm' /\ frame_ok frm /\
  map co_p (fr_corr frm) = [[0; 0; -1; -1]; [1; 1; -1; -1]; [2; 2; -1; -1]] /\
  map co_p (fr_corr frm') = [[3; 3; 3; 3]; [3; 3; 3; 3]; [2; 2; -1; -1]; [0; 0; -1; -1]] /\
  exists r, nth_error (fr_corr frm') 3 = Some r /\ ~ wanted_row 2 [3; 3] r.
Proof.
  exists three. destruct (add_particle 2 three (fz 4, fz 4, fz 0) [3; 3]) as [f|e] eqn:E; vm_compute in E; [|discriminate].
  injection E as <-. eexists. split; [reflexivity|]. split.
  { split; [reflexivity|]. intros tl t Htl Ht. cbn in Htl. destruct Htl as [<-|[<-|[]]]; cbn in Ht; intuition (subst; cbn; lia). }
  split; [reflexivity|]. split; [reflexivity|]. eexists. split; [reflexivity|]. intros H. specialize (H O 3 ltac:(lia) eq_refl). discriminate.
Qed.
Print Assumptions C22_refuted.
