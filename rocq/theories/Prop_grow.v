(** C93, continued: runs that add particles, repeated over the same files. *)
From Coq Require Import Permutation.
From Verif Require Import F64 Model_text Proof_text Model_corr Model_track Spec_track Proof_track_ex Proof_unread Proof_keep Model_fb Spec_fb Proof_fb Proof_keep2 Prop_fb Proof_rerun Prop_rerun
  Model_io Spec_io Proof_io Proof_io2 Proof_io3 Proof_io4 Model_files Spec_files Proof_files Proof_files2 Proof_files3 Proof_files4 Proof_files5 Proof_files6 Proof_files7 Proof_grow Proof_grow2 Proof_grow3 Prop_files Lib Base.
Local Open Scope Z_scope.

(** Forward runs that may add particles, repeated over the same files, come to an end: once there have been two runs more than
    the given frames have unused detections, every further run leaves all files as they are and finds the same links as the run
    before it. *)
Theorem C93_adding_settles : forall psort, (forall l, Permutation l (psort l)) ->
  forall can_write cb lb pb bases pixdist imx imy ptp quader moving extrap sub norm angle flat point tp vl, (1 <= length bases <= 4)%nat -> (forall v, vec_floats (point v)) ->
  let fstep := trackcorr_step psort pixdist (Z.of_nat (length bases)) imx imy ptp quader moving extrap sub norm angle flat point tp vl in
  forall first last e0 e1 e2 e3 (fs : nat -> files) (R : Z -> frame) (links : nat -> Z) (m : nat), first < last ->
  layout can_write cb lb pb bases first (Z.max last (first + 2)) ->
  (forall n, first <= n <= Z.max last (first + 2) -> file_read cb lb pb bases (fs O) n false = Ok (R n) /\ frame_ok (R n) /\ fits (R n) /\ roomy (R n)) ->
  (last <= first + 2 -> frame_ok e2 \/ unread e2) ->
  (forall i, (i < m)%nat -> exists buf, forward_run can_write cb lb pb bases fstep first last ([e0; e1; e2; e3], fs i) = Ok ((buf, fs (S i)), links i)) ->
  forall j, (list_sum (map (fun n => unused_targets (R n)) (zrange first (last + 1))) + 2 <= j < m)%nat ->
    (forall t, fs (S j) t = fs j t) /\ links j = links (pred j).
Proof.
  intros psort HP can_write cb lb pb bases pixdist imx imy ptp quader moving extrap sub norm angle flat point tp vl Hc PT fstep first last e0 e1 e2 e3 fs R links m Hl L HR He RUNS j Hj.
  assert (R0 : ready cb lb pb bases first last (fs O) R) by exact HR.
  eapply (settles can_write cb lb pb bases psort HP pixdist Hc imx imy ptp quader moving extrap sub norm angle flat point PT tp vl first last e0 e1 e2 e3 Hl L He fs links m RUNS); [eapply ready_canon; eauto| |lia].
  unfold total. erewrite map_ext_in; [apply Hj|]. intros n Hn. apply In_zrange in Hn. cbn beta. f_equal. apply (canon_eq cb lb pb bases first last e0 (fs O) R n R0). lia.
Qed.
Print Assumptions C93_adding_settles.

(** five runs over the directory of C93_adding_frames (two unused detections, one added particle) *)
Definition gap_runs (i : nat) : files := Nat.iter i (fun fs => ex_after (gap_run fs)) gap_dir.
Example C93_settling_case : (forall i, (i < 5)%nat -> exists buf, gap_run (gap_runs i) = Ok ((buf, gap_runs (S i)), ex_count (gap_run (gap_runs i)))) /\
  list_sum (map (fun n => unused_targets (walk_gap n)) (zrange 10 15)) = 2%nat /\
  gap_runs 1 (txt "res/ptv_is.12") <> gap_runs 0 (txt "res/ptv_is.12").
Proof.
  split; [|split; [reflexivity|vm_compute; discriminate]]. intros i Hi.
  assert (X : match gap_run (gap_runs i) with Ok _ => True | Exn _ => False end).
  { do 5 (destruct i as [|i]; [vm_compute; exact I|]). lia. }
  change (gap_runs (S i)) with (ex_after (gap_run (gap_runs i))). destruct (gap_run (gap_runs i)) as [[[buf g] k]|]; [|contradiction]. exists buf. reflexivity.
Qed.

(** ---- repeating a run that adds particles changes the links ---- *)
(** a frame of [pts], seen by both cameras, with more detections at [un] *)
Definition seen (pts un : list (Z * Z)) : frame :=
  let t := map (fun k => let '(x, y) := nth (Z.to_nat k) pts (0%Z, 0%Z) in tg x y k) (zrange 0 (Z.of_nat (length pts))) ++ map (fun q => tg (fst q) (snd q) (-1)) un in
  frm (map (fun q => pt80 (fst q) (snd q) 0) pts) (map (fun k => mk_corres (k + 1) [k; k; -1; -1]) (zrange 0 (Z.of_nat (length pts)))) [t; t].
Definition odd (k : Z) : frame :=
  if k =? 10 then seen [(56, 52)] []
  else if k =? 11 then seen [(63, 48); (68, 49); (68, 52)] []
  else if k =? 12 then seen [(67, 51); (64, 53)] [(64, 48)]
  else seen [(75, 46); (74, 54)] [(72, 52)].
Definition odd_dir : files := match foldM (fun fs n => ex_write fs (odd n) n) (zrange 10 14) (fun _ => None) with Ok fs => fs | Exn _ => fun _ => None end.
Definition odd_run (fs : files) := forward_run (fun _ => true) (txt "res/rt_is") (txt "res/ptv_is") (txt "res/added") ex_bases gap_step 10 13 ([nofrm; nofrm; nofrm; nofrm], fs).
Lemma odd_frames n : 10 <= n <= 13 -> n = 10 \/ n = 11 \/ n = 12 \/ n = 13. Proof. lia. Qed.
Lemma layout_less cw cb lb pb bs lo hi lo' hi' : layout cw cb lb pb bs lo hi -> lo <= lo' -> hi' <= hi -> layout cw cb lb pb bs lo' hi'.
Proof.
  intros [A B C D E F G] H1 H2. constructor; auto; try lia.
  - intros b Hb. destruct (D b Hb) as (D1 & D2 & D3). split; auto. split; auto. intros n Hn. apply D3. lia.
  - intros n Hn. apply E. lia.
  - intros n m t Hn Hm. apply F; lia.
  - intros n t Hn. apply G; lia.
Qed.
Definition places : list Z := [56; 52; 63; 48; 68; 49; 67; 51; 64; 53; 75; 46; 74; 54; 72; 0].
Lemma seen_ready pts un : (length pts + length un <= 9)%nat -> (forall x y, In (x, y) (pts ++ un) -> In x places /\ In y places) ->
  frame_ok (seen pts un) /\ fits (seen pts un) /\ roomy (seen pts un).
Proof.
  intros HL HP. assert (K : forall z, Z.abs z <= 9999 -> exact_int z) by (intros z Hz; unfold exact_int; assert (9999 < 2 ^ 53) by reflexivity; lia).
  assert (FZ : forall z, In z places -> float_ok (fz z)).
  { unfold places. intros z Hz. cbn [In] in Hz. repeat (destruct Hz as [<-|Hz]; [right; right; split; vm_compute; reflexivity|]). destruct Hz. }
  assert (B53 : 9999 < 2 ^ 53) by reflexivity. assert (B31 : 9999 < 2 ^ 31) by reflexivity.
  assert (TG : forall t, In t (map (fun k => let '(x, y) := nth (Z.to_nat k) pts (0%Z, 0%Z) in tg x y k) (zrange 0 (Z.of_nat (length pts))) ++ map (fun q => tg (fst q) (snd q) (-1)) un) ->
     target_ok t /\ -1 <= t_tnr t).
  { assert (X : forall x y k, In x places -> In y places -> -1 <= k <= 99 -> target_ok (tg x y k) /\ -1 <= t_tnr (tg x y k)).
    { intros x y k Hx Hy Hk. unfold target_ok, tg. cbn [t_pnr t_n t_nx t_ny t_sumg t_tnr t_x t_y]. split; [|lia]. do 6 (split; [apply K; lia|]). auto. }
    intros t Ht. apply in_app_iff in Ht as [Ht|Ht]; apply in_map_iff in Ht as (k & <- & Hk).
    - apply In_zrange in Hk. destruct (nth_in_or_default (Z.to_nat k) pts (0%Z, 0%Z)) as [I|E].
      + destruct (nth (Z.to_nat k) pts (0%Z, 0%Z)) as [x y]. destruct (HP x y) as (P1 & P2); [apply in_app_iff; auto|]. apply X; auto. lia.
      + rewrite E. apply X; cbn; auto 20. lia.
    - destruct k as [x y]. destruct (HP x y) as (P1 & P2); [apply in_app_iff; auto|]. apply X; auto. lia. }
  unfold seen. set (t := map _ _ ++ map _ un) in *.
  assert (LT : (length t <= 9)%nat). { unfold t. rewrite app_length, !map_length, zrange_length. lia. }
  split; [|split; [split; [|split; [|split]]|split]]; cbn [fr_num fr_path fr_targ fr_corr frm].
  - split; [cbn; reflexivity|]. intros tl u [<-|[<-|[]]] Hu; now apply TG.
  - rewrite map_length. lia.
  - apply Forall_forall. intros c Hc. apply in_map_iff in Hc as (k & <- & Hk). apply In_zrange in Hk. split; [reflexivity|]. cbn [co_p]. repeat constructor; unfold int32; lia.
  - constructor; [|constructor; [|constructor]]; apply Forall_forall; intros u Hu; now apply TG.
  - intros p Hp. apply in_map_iff in Hp as ((x, y) & <- & Hp). destruct (HP x y) as (P1 & P2); [apply in_app_iff; auto|]. cbn [fst snd]. split; [|apply K; cbn; lia].
    split; [|split]; apply FZ; auto. cbn. auto 20.
  - rewrite map_length. unfold unused_targets. cbn [frm fr_targ map list_sum fold_right].
    assert (F : forall l, (length (filter (fun u => Z.eqb (t_tnr u) (-1)) l) <= length l)%nat) by (induction l as [|u l IH]; cbn [filter length]; [lia|destruct (Z.eqb (t_tnr u) (-1)); cbn [length]; lia]). specialize (F t). lia.
  - intros tl [<-|[<-|[]]]; lia.
Qed.
Example odd_ready n : 10 <= n <= 13 -> ex_read odd_dir n false = Ok (odd n) /\ frame_ok (odd n) /\ fits (odd n) /\ roomy (odd n).
Proof.
  intros Hn. split; [apply odd_frames in Hn as [->|[->|[->| ->]]]; vm_compute; reflexivity|].
  apply odd_frames in Hn as [->|[->|[->| ->]]];
  (match goal with |- context [odd ?k] => let v := eval cbv [odd Z.eqb Pos.eqb] in (odd k) in change (odd k) with v end);
  (apply seen_ready; [cbn; lia|]; intros x y H; cbn [app In] in H; repeat (destruct H as [H|H]; [injection H as <- <-; unfold places; cbn; auto 30|]); destruct H).
Qed.

Definition adding_again : Prop := (forall psort, (forall l, Permutation l (psort l)) ->
  forall can_write cb lb pb bases pixdist imx imy ptp quader moving extrap sub norm angle flat point tp vl, (1 <= length bases <= 4)%nat -> (forall v, vec_floats (point v)) ->
  let fstep := trackcorr_step psort pixdist (Z.of_nat (length bases)) imx imy ptp quader moving extrap sub norm angle flat point tp vl in
  forall first last e0 e1 e2 e3 fs (R : Z -> frame) buf fs' nl buf' fs'' nl', first < last ->
  layout can_write cb lb pb bases first (Z.max last (first + 2)) ->
  (forall n, first <= n <= Z.max last (first + 2) -> file_read cb lb pb bases fs n false = Ok (R n) /\ frame_ok (R n) /\ fits (R n) /\ roomy (R n)) ->
  (last <= first + 2 -> frame_ok e2 \/ unread e2) ->
  forward_run can_write cb lb pb bases fstep first last ([e0; e1; e2; e3], fs) = Ok ((buf, fs'), nl) ->
  forward_run can_write cb lb pb bases fstep first last ([e0; e1; e2; e3], fs') = Ok ((buf', fs''), nl') ->
  nl' = nl).
Lemma again_case : adding_again -> forall d (R : Z -> frame) b f k b' f' k', (forall n, 10 <= n <= 13 -> ex_read d n false = Ok (R n) /\ frame_ok (R n) /\ fits (R n) /\ roomy (R n)) ->
  odd_run d = Ok ((b, f), k) -> odd_run f = Ok ((b', f'), k') -> k' = k.
Proof.
  intros H d R b f k b' f' k' HR E1 E2.
  assert (L : layout (fun _ => true) (txt "res/rt_is") (txt "res/ptv_is") (txt "res/added") ex_bases 10 (Z.max 13 (10 + 2))) by (eapply layout_less; [exact C93_case_layout|lia|lia]).
  refine (H isort isort_perm (fun _ => true) (txt "res/rt_is") (txt "res/ptv_is") (txt "res/added") ex_bases toy_dist 1000 1000 toy_pixel toy_quader toy_moving toy_extrap
    toy_sub toy_norm toy_angle toy_flat gap_point (toy_tp true) toy_vl _ gap_point_ok 10 13 nofrm nofrm nofrm nofrm d R b f k b' f' k' _ L _ _ _ _); [cbn; lia|lia|exact HR|lia|exact E1|exact E2].
Qed.
Opaque odd_run.
(** Refuted: that repeating a run that adds particles finds the same links as the run before it. (C93_repeat proves it of runs
    that add none.) *)
Theorem C93_adding_again_refuted : ~ (forall psort, (forall l, Permutation l (psort l)) ->
  forall can_write cb lb pb bases pixdist imx imy ptp quader moving extrap sub norm angle flat point tp vl, (1 <= length bases <= 4)%nat -> (forall v, vec_floats (point v)) ->
  let fstep := trackcorr_step psort pixdist (Z.of_nat (length bases)) imx imy ptp quader moving extrap sub norm angle flat point tp vl in
  forall first last e0 e1 e2 e3 fs (R : Z -> frame) buf fs' nl buf' fs'' nl', first < last ->
  layout can_write cb lb pb bases first (Z.max last (first + 2)) ->
  (forall n, first <= n <= Z.max last (first + 2) -> file_read cb lb pb bases fs n false = Ok (R n) /\ frame_ok (R n) /\ fits (R n) /\ roomy (R n)) ->
  (last <= first + 2 -> frame_ok e2 \/ unread e2) ->
  forward_run can_write cb lb pb bases fstep first last ([e0; e1; e2; e3], fs) = Ok ((buf, fs'), nl) ->
  forward_run can_write cb lb pb bases fstep first last ([e0; e1; e2; e3], fs') = Ok ((buf', fs''), nl') ->
  nl' = nl).
Proof.
  intros H. change adding_again in H.
  assert (X : match odd_run odd_dir with Ok ((b, f), n) => n = 3 /\ match odd_run f with Ok ((b', f'), n') => n' = 5 | Exn _ => False end | Exn _ => False end) by (vm_compute; auto).
  pose proof (again_case H odd_dir odd) as Y. destruct (odd_run odd_dir) as [[[b f] n]|]; [|contradiction]. destruct X as (-> & X).
  destruct (odd_run f) as [[[b' f'] n']|] eqn:E2; [|contradiction]. subst n'.
  specialize (Y b f 3 b' f' 5 odd_ready eq_refl E2). discriminate Y.
Qed.
Print Assumptions C93_adding_again_refuted.

(** over files: the directory of C93_adding_case, but no particle at all in frame 12: the run that should add both ends with the
    exception (C22_few_particles_refuted) *)
Definition empty12 (k : Z) : frame := if k =? 12 then seen [] [(86, 52); (186, 54)] else walk k.
Definition empty12_dir : files := match foldM (fun fs n => ex_write fs (empty12 n) n) (zrange 10 15) (fun _ => None) with Ok fs => fs | Exn _ => fun _ => None end.
Example C93_empty_frame_case : (forall n, 10 <= n <= 14 -> ex_read empty12_dir n false = Ok (empty12 n)) /\ gap_run empty12_dir = Exn IndexError.
Proof.
  split; [|vm_compute; reflexivity]. intros n Hn. apply ex_frames in Hn as [->|[->|[->|[->| ->]]]]; vm_compute; reflexivity.
Qed.
