(** C85: setting up a run from legacy files, accessors, inputs of the grid matching. *)
From Verif Require Import F64 Model_text Model_corr Model_track Model_io Spec_io Proof_io Model_par Spec_par Prop_par Model_setup Spec_setup Lib Base.
Local Open Scope Z_scope.

(** ===== the run ===== *)
(** The constructor gets exactly what the lines of the four files say: as many sequence
    names as the control file has cameras, and every tracking limit under its own name. *)
Theorem C85_new : forall (run : Type) (make : seqpar -> tracktuple -> volumepar -> ctrlpar -> result run) fs sf tf vf cf ts tt tv tc sq tk vp cp,
  fs sf = Some ts -> fs tf = Some tt -> fs vf = Some tv -> fs cf = Some tc ->
  control_file tc cp -> sequence_file ts (cp_num cp) sq -> track_file tt tk -> volume_file tv vp ->
  exists u, tr_new run make fs sf tf vf cf = make sq u vp cp /\ same_track tk u.
Proof.
  intros run make fs sf tf vf cf ts tt tv tc sq tk vp cp ES ET EV EC HC HS HT HV. exists (convert_track_par_to_tuple tk).
  pose proof HT as HT'. destruct HT' as (_ & _ & _ & _ & _ & _ & _ & _ & _ & A & B & C & D).
  apply (C59_control _ _ _ _ EC) in HC. apply (C59_sequence _ _ _ _ _ ES) in HS. apply (C59_track _ _ _ _ ET) in HT. apply (C59_volume _ _ _ _ EV) in HV.
  split; [unfold tr_new; rewrite HC; cbn [bind]; rewrite HS; cbn [bind]; rewrite HT; cbn [bind]; rewrite HV; reflexivity|]. unfold same_track. cbn. tauto.
Qed.
Print Assumptions C85_new.
(** and conversely a run made from files was made from four such files *)
Theorem C85_only : forall (run : Type) (make : seqpar -> tracktuple -> volumepar -> ctrlpar -> result run) fs sf tf vf cf r,
  tr_new run make fs sf tf vf cf = Ok r ->
  exists ts tt tv tc sq tk vp cp u, fs sf = Some ts /\ fs tf = Some tt /\ fs vf = Some tv /\ fs cf = Some tc /\
  control_file tc cp /\ sequence_file ts (cp_num cp) sq /\ track_file tt tk /\ volume_file tv vp /\ make sq u vp cp = Ok r /\ same_track tk u.
Proof.
  intros run make fs sf tf vf cf r E. unfold tr_new in E.
  destruct (read_control fs cf) as [cp|] eqn:HC; [|discriminate]. cbn [bind] in E. destruct (read_sequence fs sf (cp_num cp)) as [sq|] eqn:HS; [|discriminate]. cbn [bind] in E.
  destruct (read_track fs tf) as [tk|] eqn:HT; [|discriminate]. cbn [bind] in E. destruct (read_volume fs vf) as [vp|] eqn:HV; [|discriminate]. cbn [bind] in E.
  destruct (fs sf) as [ts|] eqn:ES; [|unfold read_sequence in HS; rewrite ES in HS; discriminate].
  destruct (fs tf) as [tt|] eqn:ET; [|unfold read_track in HT; rewrite ET in HT; discriminate].
  destruct (fs vf) as [tv|] eqn:EV; [|unfold read_volume in HV; rewrite EV in HV; discriminate].
  destruct (fs cf) as [tc|] eqn:EC; [|unfold read_control in HC; rewrite EC in HC; discriminate].
  apply (C59_control _ _ _ _ EC) in HC. apply (C59_sequence _ _ _ _ _ ES) in HS. apply (C59_track _ _ _ _ ET) in HT. apply (C59_volume _ _ _ _ EV) in HV.
  exists ts, tt, tv, tc, sq, tk, vp, cp, (convert_track_par_to_tuple tk). do 8 (split; [first [reflexivity|assumption]|]). split; [exact E|].
  destruct HT as (_ & _ & _ & _ & _ & _ & _ & _ & _ & HA & HB & HD & HE). unfold same_track. cbn. tauto.
Qed.
Print Assumptions C85_only.
(** A missing file: the control file is asked for first, then sequence, tracking, volume
    file; nothing is constructed.  (The missing tracking file is reported as TypeError, C60.) *)
Theorem C85_missing : forall (run : Type) (make : seqpar -> tracktuple -> volumepar -> ctrlpar -> result run) fs sf tf vf cf,
  (fs cf = None -> tr_new run make fs sf tf vf cf = Exn FileNotFoundError) /\
  (forall tc cp, fs cf = Some tc -> control_file tc cp ->
    (fs sf = None -> tr_new run make fs sf tf vf cf = Exn IOError) /\
    (forall ts sq, fs sf = Some ts -> sequence_file ts (cp_num cp) sq ->
      (fs tf = None -> tr_new run make fs sf tf vf cf = Exn TypeError) /\
      (forall tt tk, fs tf = Some tt -> track_file tt tk -> fs vf = None -> tr_new run make fs sf tf vf cf = Exn IOError))).
Proof.
  intros run make fs sf tf vf cf. unfold tr_new. split; [intros E; unfold read_control; now rewrite E|].
  intros tc cp EC HC. apply (C59_control _ _ _ _ EC) in HC. rewrite HC. cbn [bind]. split; [intros E; unfold read_sequence; now rewrite E|].
  intros ts sq ES HS. apply (C59_sequence _ _ _ _ _ ES) in HS. rewrite HS. cbn [bind]. split; [intros E; unfold read_track; now rewrite E|].
  intros tt tk ET HT E. apply (C59_track _ _ _ _ ET) in HT. rewrite HT. cbn [bind]. unfold read_volume. now rewrite E.
Qed.
Print Assumptions C85_missing.
(** a sequence file with more names than the control file has cameras is refused, unless the
    first surplus name is a number *)
Theorem C85_too_many_names : forall (run : Type) (make : seqpar -> tracktuple -> volumepar -> ctrlpar -> result run) fs sf tf vf cf tc ts cp,
  fs cf = Some tc -> control_file tc cp -> fs sf = Some ts -> parse_int (line_no ts (Z.to_nat (cp_num cp))) = Exn ValueError ->
  tr_new run make fs sf tf vf cf = Exn ValueError.
Proof.
  intros run make fs sf tf vf cf tc ts cp EC HC ES P. unfold tr_new. apply (C59_control _ _ _ _ EC) in HC. rewrite HC. cbn [bind]. unfold read_sequence. rewrite ES.
  pose proof (Proof_par.rd_names_skip (Z.to_nat (cp_num cp)) (lines ts) 0) as R. cbn [skipn] in R. rewrite R. cbn [plus]. unfold rd_int, readline.
  assert (Q : nth (Z.to_nat (cp_num cp)) (lines ts) [] = match skipn (Z.to_nat (cp_num cp)) (lines ts) with [] => [] | a :: _ => a end).
  { generalize (Z.to_nat (cp_num cp)) (lines ts). clear. induction n as [|n IH]; intros [|a l]; cbn; auto. }
  unfold line_no in P. rewrite Q in P. destruct (skipn _ _) as [|a l]; rewrite Proof_par.parse_int_strip, P; reflexivity.
Qed.
Print Assumptions C85_too_many_names.

Definition demo_fs : files := fun n =>
  if list_eqb Ascii.eqb n (txt "c") then Some (txt "1
img1
cal1
0
0
1
1280
1024
0.5
0.25
0
1.0
1.5
1.25
6
") else if list_eqb Ascii.eqb n (txt "s") then Some (txt "seq1.
100
104
") else if list_eqb Ascii.eqb n (txt "t") then Some (txt "-1
1
-2
2
-3
3
120
0.5
1
") else if list_eqb Ascii.eqb n (txt "v") then Some (txt "0
-5
-10
1
5
10
0.1
0.2
0.3
0.4
33
0.05
") else None.
Example C85_new_example : exists r, tr_new _ (fun s t v c => Ok (sq_names s, sq_first s, sq_last s, tt_dvymax t, tt_add t, vp_z_min v, cp_imx c)) demo_fs (txt "s") (txt "t") (txt "v") (txt "c") = Ok r /\
  r = ([txt "seq1."], 100, 104, f_of_Z 2, 1, [f_of_Z (-5); f_of_Z 5], 1280).
Proof. eexists. split; vm_compute; reflexivity. Qed.
Example C85_too_many_example : parse_int (line_no (txt "seq1.
seq2.
100
") (Z.to_nat 1)) = Exn ValueError.
Proof. reflexivity. Qed.

(** ===== accessors ===== *)
(** What is set is got, and nothing else changes. *)
Theorem C85_sequence : forall s l a b,
  (forall i, get_img_base_name (set_img_base_name s l) i = pyget l i) /\ get_first (set_img_base_name s l) = get_first s /\ get_last (set_img_base_name s l) = get_last s /\
  get_first (set_first s a) = a /\ (forall i, get_img_base_name (set_first s a) i = get_img_base_name s i) /\ get_last (set_first s a) = get_last s /\
  get_last (set_last s b) = b /\ (forall i, get_img_base_name (set_last s b) i = get_img_base_name s i) /\ get_first (set_last s b) = get_first s.
Proof. intros. repeat split. Qed.
Print Assumptions C85_sequence.
(** camera numbers count from 0, negative ones from the end; others raise IndexError *)
Theorem C85_sequence_name : forall s i,
  (0 <= i < Z.of_nat (length (sq_names s)) -> exists n, get_img_base_name s i = Ok n /\ nth_error (sq_names s) (Z.to_nat i) = Some n) /\
  (Z.of_nat (length (sq_names s)) <= i -> get_img_base_name s i = Exn IndexError).
Proof.
  intros s i. split.
  - intros H. destruct (pyget_in_range (sq_names s) i H) as (n & A & B). exists n. now split.
  - intros H. destruct (get_img_base_name s i) as [n|x] eqn:E.
    + exfalso. apply pyget_ok_iff in E; [|lia]. assert (Q : nth_error (sq_names s) (Z.to_nat i) <> None) by congruence. apply nth_error_Some in Q. lia.
    + apply pyget_exn_only in E. now rewrite E.
Qed.
Print Assumptions C85_sequence_name.
(** the getters of the tracking parameters: the i-th one returns the i-th float field; a
    setter changes what its getter returns and no other *)
Definition with_floats (t : trackpar) (l : list f64) : Prop := map (fun g => g t) track_getters = l.
Theorem C85_track : forall a b c d e f g h i sg n nx ny v, let t := mk_trackpar a b c d e f g h i sg n nx ny in
  with_floats t [a; b; c; d; e; f; g; h; sg; n; nx; ny] /\ get_add t = i /\
  with_floats (set_dsumg t v) [a; b; c; d; e; f; g; h; v; n; nx; ny] /\ get_add (set_dsumg t v) = i /\
  with_floats (set_dn t v) [a; b; c; d; e; f; g; h; sg; v; nx; ny] /\ get_add (set_dn t v) = i /\
  with_floats (set_dnx t v) [a; b; c; d; e; f; g; h; sg; n; v; ny] /\ get_add (set_dnx t v) = i /\
  with_floats (set_dny t v) [a; b; c; d; e; f; g; h; sg; n; nx; v] /\ get_add (set_dny t v) = i.
Proof. intros. repeat split. Qed.
Print Assumptions C85_track.
Theorem C85_volume : forall x z w cn cnx cny sg e m v l, let p := mk_volumepar x z w cn cnx cny sg e m in
  set_z_min_lay p l = mk_volumepar x l w cn cnx cny sg e m /\ set_z_max_lay p l = mk_volumepar x z l cn cnx cny sg e m /\
  set_cn p v = mk_volumepar x z w v cnx cny sg e m /\ set_cnx p v = mk_volumepar x z w cn v cny sg e m /\ set_csumg p v = mk_volumepar x z w cn cnx cny v e m /\
  set_eps0 p v = mk_volumepar x z w cn cnx cny sg v m /\ set_corrmin p v = mk_volumepar x z w cn cnx cny sg e v.
Proof. intros. repeat split. Qed.
Print Assumptions C85_volume.
(** all that the getters of the control parameters show *)
Definition shown (c : ctrlpar) := (get_image_size c, get_pixel_size c, get_chfield c, get_hp_flag c, (get_num_cams c, get_allCam_flag c, get_tiff_flag c, get_multimedia_par c)).
Theorem C85_control : forall c sz px ch hp, let rest := (get_num_cams c, get_allCam_flag c, get_tiff_flag c, get_multimedia_par c) in
  shown (set_image_size c sz) = (sz, get_pixel_size c, get_chfield c, get_hp_flag c, rest) /\
  shown (set_pixel_size c px) = (get_image_size c, px, get_chfield c, get_hp_flag c, rest) /\
  shown (set_chfield c ch) = (get_image_size c, get_pixel_size c, ch, get_hp_flag c, rest) /\
  shown (set_hp_flag c hp) = (get_image_size c, get_pixel_size c, get_chfield c, hp, rest) /\
  Forall (fun c' => cp_names c' = cp_names c /\ cp_cal c' = cp_cal c) [set_image_size c sz; set_pixel_size c px; set_chfield c ch; set_hp_flag c hp].
Proof. intros c [w h] [px py] ch hp. repeat split; repeat constructor. Qed.
Print Assumptions C85_control.
(** what read_control_par read is what the getters show *)
Theorem C85_control_read : forall fs name t c, fs name = Some t -> read_control fs name = Ok c -> let n := (2 * Z.to_nat (get_num_cams c))%nat in
  int_at t 0 (get_num_cams c) /\ int_at t (1 + n) (get_hp_flag c) /\ int_at t (2 + n) (get_allCam_flag c) /\ int_at t (3 + n) (get_tiff_flag c) /\
  int_at t (4 + n) (fst (get_image_size c)) /\ int_at t (5 + n) (snd (get_image_size c)) /\ float_at t (6 + n) (fst (get_pixel_size c)) /\ float_at t (7 + n) (snd (get_pixel_size c)) /\
  int_at t (8 + n) (get_chfield c) /\ float_at t (9 + n) (mp_n1 (get_multimedia_par c)) /\ float_at t (11 + n) (mp_n3 (get_multimedia_par c)).
Proof. intros fs name t c E H. apply (C59_control _ _ _ _ E) in H. cbv zeta in H. unfold get_num_cams, get_hp_flag, get_allCam_flag, get_tiff_flag, get_image_size, get_pixel_size, get_chfield, get_multimedia_par. cbn [fst snd]. cbv zeta. tauto. Qed.
Print Assumptions C85_control_read.
Theorem C85_target_read : forall fs name t p, fs name = Some t -> read_target_par fs name = Ok p ->
  (forall i, (i < 4)%nat -> exists g, nth_error (get_grey_thresholds p) i = Some g /\ int_at t i g) /\ length (get_grey_thresholds p) = 4%nat /\
  int_at t 5 (fst (get_pixel_count_bounds p)) /\ int_at t 6 (snd (get_pixel_count_bounds p)) /\ int_at t 7 (fst (get_xsize_bounds p)) /\ int_at t 8 (snd (get_xsize_bounds p)) /\
  int_at t 9 (fst (get_ysize_bounds p)) /\ int_at t 10 (snd (get_ysize_bounds p)) /\ int_at t 11 (get_min_sum_grey p).
Proof.
  intros fs name t p E H. apply (C59_target_par _ _ _ _ E) in H. destruct H as (g0 & g1 & g2 & g3 & G & A0 & A1 & A2 & A3 & _ & H).
  unfold get_grey_thresholds, get_pixel_count_bounds, get_xsize_bounds, get_ysize_bounds, get_min_sum_grey. cbn [fst snd]. rewrite G. split; [|cbn; tauto].
  intros [|[|[|[|i]]]] L; try lia; eexists; split; try reflexivity; assumption.
Qed.
Print Assumptions C85_target_read.

(** ===== sortgrid ===== *)
Theorem C85_eps : forall fs name,
  (fs name = None -> read_sortgrid_par fs name = Ok 25) /\
  (forall t e, fs name = Some t -> (read_sortgrid_par fs name = Ok e <-> int_at t 0 e)) /\
  (forall t x, fs name = Some t -> parse_int (line_no t 0) = Exn x -> read_sortgrid_par fs name = Exn x).
Proof.
  intros fs name. unfold read_sortgrid_par. split; [intros ->; reflexivity|]. assert (N : forall t, fst (readline (lines t)) = line_no t 0) by (intros t; unfold line_no; destruct (lines t); reflexivity).
  split; intros t; intros; rewrite H, N; [reflexivity|assumption].
Qed.
Print Assumptions C85_eps.
Lemma pyget4 {A} (a b c d : A) rest : pyget (a :: b :: c :: d :: rest) 0 = Ok a /\ pyget (a :: b :: c :: d :: rest) 1 = Ok b /\ pyget (a :: b :: c :: d :: rest) 2 = Ok c /\ pyget (a :: b :: c :: d :: rest) 3 = Ok d.
Proof. repeat split; (apply pyget_nonneg; [lia|reflexivity]). Qed.
Lemma line_ok l p : coord_of_line l = Ok p <-> block_line l p.
Proof.
  unfold coord_of_line, block_line. rewrite words_strip. split.
  - intros E. destruct (words l) as [|a [|b [|c [|d rest]]]] eqn:W.
    + discriminate E.
    + change (pyget [a] 0) with (Ok a) in E. cbn [bind] in E. destruct (parse_int a); discriminate E.
    + change (pyget [a; b] 0) with (Ok a) in E. change (pyget [a; b] 1) with (Ok b) in E. cbn [bind] in E. destruct (parse_int a); [|discriminate E]. cbn [bind] in E. destruct (parse_float b); discriminate E.
    + change (pyget [a; b; c] 0) with (Ok a) in E. change (pyget [a; b; c] 1) with (Ok b) in E. change (pyget [a; b; c] 2) with (Ok c) in E. cbn [bind] in E.
      destruct (parse_int a); [|discriminate E]. cbn [bind] in E. destruct (parse_float b); [|discriminate E]. cbn [bind] in E. destruct (parse_float c); discriminate E.
    + destruct (pyget4 a b c d rest) as (G0 & G1 & G2 & G3). rewrite G0, G1, G2, G3 in E. cbn [bind] in E.
      destruct (parse_int a) as [n|] eqn:PA; [|discriminate]. cbn [bind] in E. destruct (parse_float b) as [x|] eqn:PB; [|discriminate]. cbn [bind] in E. destruct (parse_float c) as [y|] eqn:PC; [|discriminate]. cbn [bind] in E.
      destruct (parse_float d) as [z|] eqn:PD; [|discriminate]. cbn [bind] in E. injection E as <-. exists a, b, c, d, rest, x, y, z. cbn [fst]. auto 10.
  - intros (a & b & c & d & rest & x & y & z & W & P & A & B & C & D). rewrite W.
    destruct (pyget4 a b c d rest) as (G0 & G1 & G2 & G3). rewrite G0, G1, G2, G3. cbn [bind]. rewrite A, B, C, D. cbn [bind]. now rewrite <- P.
Qed.
Lemma lines_ok ls : forall ps, coords_of_lines ls = Ok ps <-> Forall2 block_line ls ps.
Proof.
  induction ls as [|l ls IH]; intros ps; cbn [coords_of_lines].
  - split; [intros [= <-]; constructor|intros H; inversion H; reflexivity].
  - split.
    + intros E. destruct (coord_of_line l) as [p|] eqn:P; [|discriminate]. cbn [bind] in E. destruct (coords_of_lines ls) as [qs|] eqn:Q; [|discriminate]. cbn [bind] in E. injection E as <-.
      constructor; [now apply line_ok|]. now apply IH.
    + intros H. inversion H as [|? p ? qs H1 H2]; subst. apply line_ok in H1. apply IH in H2. rewrite H1. cbn [bind]. rewrite H2. reflexivity.
Qed.
(** every line a row, in order; no file: no rows *)
Theorem C85_block : forall fs name,
  (fs name = None -> read_calblock fs name = Ok []) /\
  (forall t ps, fs name = Some t -> Forall2 block_line (lines t) ps -> read_calblock fs name = Ok ps) /\
  (forall t ps, fs name = Some t -> read_calblock fs name = Ok ps -> ps <> [] -> Forall2 block_line (lines t) ps).
Proof.
  intros fs name. unfold read_calblock. split; [intros ->; reflexivity|]. split; intros t ps E.
  - intros H. rewrite E. apply lines_ok in H. now rewrite H.
  - rewrite E. intros H NE. apply lines_ok. destruct (coords_of_lines (lines t)) as [qs|[]]; congruence.
Qed.
Print Assumptions C85_block.
(** One word that is no number, in any line: the whole block is silently empty. *)
Theorem C85_block_silent_refuted : forall fs name t good l rest ps, fs name = Some t -> lines t = good ++ l :: rest -> Forall2 block_line good ps -> bad_number l ->
  read_calblock fs name = Ok [].
Proof.
  intros fs name t good l rest ps E L G (a & b & c & d & more & W & B). unfold read_calblock. rewrite E, L.
  assert (X : coord_of_line l = Exn ValueError).
  { unfold coord_of_line. rewrite words_strip, W.
    destruct (pyget4 a b c d more) as (G0 & G1 & G2 & G3). rewrite G0, G1, G2, G3. cbn [bind].
    assert (PI : forall w, parse_int w = Exn ValueError \/ exists v, parse_int w = Ok v).
    { intros w. unfold parse_int. destruct (take_sign (strip w)) as [s u]. destruct (span_digits u) as [[|x ds] [|y r]]; eauto. }
    assert (PF : forall w, parse_float w = Exn ValueError \/ exists v, parse_float w = Ok v).
    { intros w. destruct (parse_float w) as [v|x] eqn:P; [eauto|]. left. revert P. unfold parse_float. repeat (match goal with |- context [match ?q with _ => _ end] => destruct q end; try discriminate); congruence. }
    destruct (PI a) as [->|(n & An)]; [reflexivity|]. rewrite An. cbn [bind]. destruct (PF b) as [->|(x & Bx)]; [reflexivity|]. rewrite Bx. cbn [bind]. destruct (PF c) as [->|(y & Cy)]; [reflexivity|]. rewrite Cy. cbn [bind].
    destruct (PF d) as [->|(z & Dz)]; [reflexivity|]. destruct B as [B|[B|[B|B]]]; congruence. }
  assert (Y : coords_of_lines (good ++ l :: rest) = Exn ValueError).
  { clear L. revert ps G. induction good as [|g good IH]; intros ps G; cbn [app coords_of_lines]; [now rewrite X|]. inversion G as [|? p ? qs H1 H2]; subst. apply line_ok in H1. rewrite H1. cbn [bind]. rewrite (IH _ H2). reflexivity. }
  now rewrite Y.
Qed.
Print Assumptions C85_block_silent_refuted.
(** A blank line (a second newline at the end, too): IndexError. *)
Theorem C85_block_blank_refuted : forall fs name t good l rest ps, fs name = Some t -> lines t = good ++ l :: rest -> Forall2 block_line good ps -> words l = [] ->
  read_calblock fs name = Exn IndexError.
Proof.
  intros fs name t good l rest ps E L G W. unfold read_calblock. rewrite E, L.
  assert (Y : coords_of_lines (good ++ l :: rest) = Exn IndexError).
  { clear L. revert ps G. induction good as [|g good IH]; intros ps G; cbn [app coords_of_lines]; [unfold coord_of_line; now rewrite words_strip, W|].
    inversion G as [|? p ? qs H1 H2]; subst. apply line_ok in H1. rewrite H1. cbn [bind]. rewrite (IH _ H2). reflexivity. }
  now rewrite Y.
Qed.
Print Assumptions C85_block_blank_refuted.
Definition block_fs (s : text) : files := fun _ => Some s.
Example C85_block_example : read_calblock (block_fs (txt "1 10 0 1.5
2 20 0 -1
")) (txt "b") = Ok [(1, (f_of_Z 10, fzero, f_of_dec false 15 1)); (2, (f_of_Z 20, fzero, f_of_Z (-1)))].
Proof. vm_compute. reflexivity. Qed.
Example C85_block_silent_example : read_calblock (block_fs (txt "1 10 0 1.5
2 20 O -1
")) (txt "b") = Ok [] /\ bad_number (txt "2 20 O -1").
Proof. split; [vm_compute; reflexivity|]. do 5 eexists. split; [vm_compute; reflexivity|]. right. right. left. vm_compute. reflexivity. Qed.
Example C85_block_blank_example : read_calblock (block_fs (txt "1 10 0 1.5

")) (txt "b") = Exn IndexError /\ lines (txt "1 10 0 1.5

") = [txt "1 10 0 1.5"] ++ [txt ""].
Proof. split; vm_compute; reflexivity. Qed.
