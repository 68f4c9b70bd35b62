(** What was written reads back, without links, as a frame that is written the same way. *)
From Coq Require Import Permutation.
From Verif Require Import F64 Model_text Proof_text Model_corr Model_track Spec_track Proof_unread Proof_keep Model_fb Spec_fb Proof_fb Proof_keep2 Prop_fb
  Model_io Spec_io Proof_io Proof_io2 Proof_io3 Proof_io4 Model_files Spec_files Proof_files Proof_files2 Proof_files3 Proof_files4 Lib Base.
Local Open Scope Z_scope.

Lemma of_as m : Forall path_ok m -> exists r, as_pinfos m = Ok r /\ map of_pinfo r = m.
Proof.
  intros H. induction H as [|p m (A & _) H (r & E & F)]; [exists []; auto|]. cbn [as_pinfos]. unfold as_pinfo.
  destruct p as [xs pv nx pr dc fi lk il]. cbn [pr_x pr_prev pr_next pr_prio pr_decis pr_final pr_link pr_inlist] in *. destruct xs as [|x [|y [|z [|? ?]]]]; try discriminate A.
  cbn [bind]. rewrite E. cbn [bind]. eexists. split; [reflexivity|]. cbn [map]. rewrite F. reflexivity.
Qed.
Lemma target_back_ok t : target_ok t -> target_ok (back_target t).
Proof. intros (A & B & C & D & E & F & G & H). unfold target_ok, back_target. cbn [t_pnr t_n t_nx t_ny t_sumg t_tnr t_x t_y]. do 6 (split; auto). split; now apply back_ok. Qed.
Lemma targets_back_text ts num : Forall target_ok ts -> targets_text (map back_target ts) num = targets_text ts num.
Proof.
  intros H. unfold targets_text. f_equal. induction H as [|t ts T H IH]; [reflexivity|]. cbn [map flat_map]. now rewrite back_row, IH.
Qed.
Lemma tnr_back l : map t_tnr (concat (map (map back_target) l)) = map t_tnr (concat l).
Proof. induction l as [|t l IH]; [reflexivity|]. cbn [map concat]. now rewrite !map_app, map_map, IH. Qed.
Lemma pos_back l r : Forall path_ok (map of_pinfo l) -> map of_pinfo r = map (back_path false false) (map of_pinfo l) -> Forall2 same_position l r.
Proof.
  revert r. induction l as [|p l IH]; intros [|q r] H E; try discriminate E; [constructor|]. cbn [map] in *. inversion H as [|? ? (_ & F & _) H']; subst. injection E as E1 E2. constructor; [|now apply IH].
  apply (f_equal pr_x) in E1. unfold back_path in E1. cbn [pr_x] in E1. unfold of_pinfo, same_position in *. destruct (p_x p) as [[x y] z], (p_x q) as [[x' y'] z']. cbn [pr_x map] in *. injection E1 as -> -> ->.
  inversion F as [|? ? F1 F']; inversion F' as [|? ? F2 F'']; inversion F'' as [|? ? F3 _]; subst. split; [|split]; now apply back_digits.
Qed.
Lemma want_texts f : good f -> snd (want_rows f) = None /\ exists lt pt, want f = Some (ctext (fr_corr f) (map of_pinfo (fr_path f))) :: lt :: pt :: wantt f.
Proof.
  intros (G1 & G2 & G3 & G4 & G5 & G6). unfold want, want_rows. rewrite G1. set (path := map of_pinfo (fr_path f)) in *. set (cor := fr_corr f) in *.
  assert (Lp : length path = length cor) by (unfold path; now rewrite map_length).
  set (h := line _). pose proof (write_rows_ok true (combine path cor) [] h h h (combine_ok path cor Lp G4 G5)) as H. cbn [length app] in H.
  rewrite combine_fst, combine_snd in H by assumption. rewrite combine_length, <- Lp, Nat.min_id in H.
  assert (E : length path = length (fr_path f)) by (unfold path; apply map_length). rewrite E in H. cbn [Z.of_nat Nat.add] in H. rewrite H. split; [reflexivity|]. eexists. eexists.
  unfold ctext. rewrite E. reflexivity.
Qed.

Section F5.
Variable can_write : text -> bool.
Variables cb lb pb : text.
Variable bases : list text.
Variables lo hi : Z.
Hypothesis L : layout can_write cb lb pb bases lo hi.
Local Notation cparse := (cparse cb lb pb bases lo).
Local Notation writable := (writable bases).
Theorem back_fresh f : lo <= hi -> writable f -> good f ->
  exists g, cparse false (want f) = Ok g /\ writable g /\ good g /\ nth_error (want g) 0 = nth_error (want f) 0 /\ skipn 3 (want g) = skipn 3 (want f) /\
    map t_tnr (concat (fr_targ g)) = map t_tnr (concat (fr_targ f)) /\
    Forall2 same_position (fr_path f) (fr_path g) /\ Forall2 (Forall2 (same_target 4)) (fr_targ f) (fr_targ g).
Proof.
  intros Hn WF G. assert (Hlo : lo <= lo <= hi) by lia. pose proof WF as (A & B & _ & NE). pose proof G as (G1 & G2 & G3 & G4 & G5 & G6).
  destruct (want_texts f G) as (_ & lt & pt & EW). set (path := map of_pinfo (fr_path f)) in *.
  destruct (write_ok _ _ _ _ _ _ _ L (fun _ => None) f lo Hlo WF) as (fs' & W & C & _).
  assert (F0 : fs' (frame_name cb lo) = Some (ctext (fr_corr f) path)) by (rewrite EW in C; unfold contents, files_of in C; cbn [map] in C; congruence).
  assert (FT : map fs' (map (target_file lo) bases) = wantt f) by (rewrite EW in C; unfold contents, files_of in C; cbn [map] in C; congruence).
  set (path' := map (back_path false false) path). set (cor' := back_corr 0 (fr_corr f)).
  assert (PO : Forall path_ok path') by (apply Forall_map; eapply Forall_impl; [|exact G4]; intros p; apply back_path_ok).
  destruct (of_as path' PO) as (r & Er & Fr).
  assert (Lp : length path = length (fr_corr f)) by (unfold path; now rewrite map_length).
  assert (LR : length r = length (fr_path f)) by (transitivity (length (map of_pinfo r)); [now rewrite map_length|]; rewrite Fr; unfold path', path; now rewrite !map_length).
  exists (mk_frame r cor' (map (map back_target) (fr_targ f)) (fr_numt f) (fr_num f)).
  assert (GG : good (mk_frame r cor' (map (map back_target) (fr_targ f)) (fr_numt f) (fr_num f))).
  { unfold good. cbn [fr_num fr_path fr_corr fr_targ fr_numt]. rewrite LR, Fr. split; auto. split; [unfold cor'; now rewrite back_corr_length|]. split; [rewrite G3, map_map; apply map_ext; intros t; now rewrite map_length|].
    split; auto. split; [now apply back_corr_ok|]. apply Forall_map. eapply Forall_impl; [|exact G6]. intros ts T. apply Forall_map. eapply Forall_impl; [|exact T]. apply target_back_ok. }
  split.
  - rewrite <- C, <- (cparse_ok _ _ _ _ _ _ _ L fs' lo false Hlo). unfold file_read. rewrite frame_read_eq.
    pose proof (read_path_spec fs' (fr_corr f) path cb lb pb lo false false Lp G4 G5 F0 ltac:(discriminate) ltac:(discriminate)) as P. cbn [andb] in P. rewrite P. cbn [bind].
    assert (T : read_all_targets fs' bases lo = Ok (map (map back_target) (fr_targ f))).
    { pose proof (read_all_spec can_write lo (combine (fr_targ f) bases) (map (target_file lo) bases) fs' (cams_fine _ _ _ _ _ _ _ L lo f Hlo WF G)) as T.
      rewrite combine_snd in T by auto. rewrite T.
      - rewrite <- (map_map fst (map back_target)). now rewrite combine_fst by auto.
      - clear - FT G3 A. revert FT A. unfold wantt. rewrite G3. clear G3. generalize bases. induction (fr_targ f) as [|t ts IH]; intros [|b bs] FT A; try discriminate A; [constructor|].
        cbn [map combine fst snd] in *. injection FT as F1 F2. constructor; [exact F1|]. apply IH; [exact F2|cbn [length] in A; congruence]. }
    rewrite T. cbn [bind]. unfold as_frame. cbn [if_path if_corr if_targ if_numt if_num]. fold path' cor'. rewrite Er, corrs_back. cbn [bind]. f_equal. f_equal.
    + rewrite G3, map_map. apply map_ext. intros t. now rewrite map_length.
    + unfold cor'. rewrite map_length, back_corr_length, G2. now symmetry.
  - destruct (want_texts _ GG) as (N & lt' & pt' & EG). split; [|split; [exact GG|]].
    + split; [cbn [fr_targ]; now rewrite map_length|]. split; [exact B|]. split; [exact N|]. intros ts Ht. cbn [fr_targ] in Ht. apply in_map_iff in Ht as (t & <- & Ht). specialize (NE _ Ht). destruct t; [contradiction|discriminate].
    + rewrite EW, EG. cbn [nth_error skipn]. cbn [fr_corr fr_path]. split; [|split].
      * rewrite Fr. do 2 f_equal. unfold ctext, path', cor'. rewrite map_length, crows_back by exact G4. reflexivity.
      * unfold wantt. cbn [fr_targ fr_numt]. clear - G6. revert G6. generalize (fr_numt f). induction (fr_targ f) as [|t ts IH]; intros [|n ns] G6; try reflexivity. inversion G6; subst. cbn [map combine fst snd].
        rewrite targets_back_text by assumption. f_equal. apply IH. assumption.
      * split; [apply tnr_back|]. cbn [fr_path fr_targ]. split.
        -- apply (pos_back _ _ G4 Fr).
        -- clear - G6. induction G6 as [|t ts T G6 IH]; cbn [map]; constructor; [|exact IH]. induction T as [|x l X T IH']; cbn [map]; constructor; [now apply back_same|exact IH'].
Qed.
End F5.
