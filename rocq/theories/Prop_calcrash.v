(** Property C95: a crash while a calibration is written. *)
From Verif Require Import F64 F64R Model_text Proof_text Proof_text2 Model_corr Model_track Model_io Spec_io Proof_io Model_crash Spec_crash Proof_crash Model_par Spec_par Proof_par Proof_par2 Proof_par3 Prop_par Model_calcrash Spec_calcrash Proof_calcrash Lib Base.
Local Open Scope Z_scope.

(** ===== C95 =====
    The operations, all carried out, have the effect of Calibration.write (C37), also when it raises. *)
Theorem C95_operations : forall can_write fs c name add, can_write name = true -> can_write add = true -> length (cf_int c) = 3%nat ->
  forall m, run_ops (concat (cal_phases c name add)) fs m = fst (cal_write can_write fs c name (Some add)) m.
Proof. exact cal_run. Qed.
Print Assumptions C95_operations.

Lemma phases_ok c name add : cal_ok c -> exists xh yh cc g0 g1 g2, cf_int c = [xh; yh; cc] /\ cf_glass c = [g0; g1; g2] /\
  cal_phases c name add = [Open name :: map (Write name) (head_chunks c xh yh cc ++ [glass_chunk g0 g1 g2]); Open add :: map (Write add) [line (row 8 (cf_added c))]].
Proof.
  intros (_ & _ & _ & _ & L5 & L6 & L7 & _). destruct (cf_int c) as [|xh [|yh [|cc [|]]]] eqn:EI; try discriminate. destruct (cf_glass c) as [|g0 [|g1 [|g2 [|]]]] eqn:EG; try discriminate.
  exists xh, yh, cc, g0, g1, g2. split; [reflexivity|]. split; [reflexivity|]. unfold cal_phases. rewrite (ori_ops_eq _ _ _ _ _ EI), add_ops_eq, EI, EG.
  destruct (cf_added c) as [|a0 [|a1 [|a2 [|a3 [|a4 [|a5 [|a6 [|]]]]]]]]; try discriminate. reflexivity.
Qed.
(** A crash at any point, with any part of the written text still in the buffers: other files are as before, and
    - nothing has changed at all, or
    - the distortion file is the old one, and what can be read from the orientation file is right but for its last number and what is
      missing after it, or
    - the orientation is the new one, and what can be read from the distortion file is right but for its last number. *)
Theorem C95_read : forall fsin fcos c name add fs fs', cal_ok c -> name <> add -> crash_in (cal_phases c name add) fs fs' ->
  (forall m, m <> name -> m <> add -> fs' m = fs m) /\
  ((forall m, fs' m = fs m) \/
   (fs' add = fs add /\ forall a c', cal_from_file fsin fcos fs' name a = Ok c' -> cut_orientation fsin fcos c c') \/
   (forall a c', cal_from_file fsin fcos fs' name a = Ok c' -> whole_orientation fsin fcos c c' /\
      (a = Some add -> length (cf_added c') = 7%nat /\ Forall2 (to_digits 8) (firstn 6 (cf_added c)) (firstn 6 (cf_added c'))))).
Proof.
  intros fsin fcos c name add fs fs' OK N (done & now_ & rest & E & CR). destruct (phases_ok c name add OK) as (xh & yh & cc & g0 & g1 & g2 & EI & EG & EP). rewrite EP in E.
  set (ts := head_chunks c xh yh cc ++ _) in E. assert (CT : concat ts = ori_text c xh yh cc g0 g1 g2) by apply ori_concat. clearbody ts.
  set (ta := [_] : list text) in E. assert (CA : concat ta = line (row 8 (cf_added c))) by apply app_nil_r. clearbody ta.
  destruct done as [|p1 [|p2 done]]; [| |destruct done; discriminate].
  - cbn [app concat run_ops fold_left] in *. injection E as <- _. apply file_crash in CR. destruct CR as (O & H). split; [intros m M1 _; now apply O|].
    destruct H as [H|(t & T & ST)]; [left; intros m; destruct (teqb_spec m name) as [->|M]; [exact H|now apply O]|]. right. left. split; [apply O; congruence|].
    rewrite CT in ST. intros a c' RD. now apply cut_read with fs' name a xh yh cc g0 g1 g2 t.
  - cbn [app concat] in *. injection E as <- <- _. rewrite app_nil_r in CR. apply file_crash in CR. destruct CR as (O & H).
    assert (R : forall m, run_ops (Open name :: map (Write name) ts) fs m = put fs name (ori_text c xh yh cc g0 g1 g2) m) by (intros m; now rewrite run_file, CT).
    split; [intros m M1 M2; now rewrite O, R, put_neq|]. right. assert (TN : fs' name = Some (ori_text c xh yh cc g0 g1 g2)) by now rewrite O, R, put_eq.
    destruct H as [H|(t & T & ST)].
    + left. split; [now rewrite H, R, put_neq by congruence|]. intros a c' RD. apply cut_read with fs' name a xh yh cc g0 g1 g2 (ori_text c xh yh cc g0 g1 g2); auto. apply starts_refl.
    + right. intros a c' RD. split; [now apply whole_read with fs' name a xh yh cc g0 g1 g2|]. intros ->. rewrite CA in ST. now apply added_read with fsin fcos fs' name add t.
Qed.
Print Assumptions C95_read.

(** Refuted: writing is not atomic.  Whatever calibration was stored before, a crash can leave neither the old nor the new one: *)
Theorem C95_lost_refuted : forall c name add fs, cal_ok c -> exists fs', crash_in (cal_phases c name add) fs fs' /\ forall fsin fcos a, cal_from_file fsin fcos fs' name a = Exn ValueError.
Proof.
  intros c name add fs OK. destruct (phases_ok c name add OK) as (xh & yh & cc & g0 & g1 & g2 & EI & EG & EP). exists (put fs name []). split.
  - eexists [], _, _. split; [exact EP|]. cbn [concat run_ops fold_left]. apply file_crash_any. now eexists.
  - intros fsin fcos a. unfold cal_from_file. now rewrite put_eq.
Qed.
Print Assumptions C95_lost_refuted.

(** Refuted: a file that can be read is complete.  A crash before the last line is written leaves a file that is read without any
    error, as a calibration without a glass vector. *)
Theorem C95_no_glass_refuted : forall fsin fcos c name add fs, cal_ok c -> exists fs', crash_in (cal_phases c name add) fs fs' /\
  exists c', cal_from_file fsin fcos fs' name None = Ok c' /\ cf_glass c' = [] /\ same_pose fsin fcos c c' /\ Forall2 (to_digits 4) (cf_int c) (cf_int c').
Proof.
  intros fsin fcos c name add fs OK. destruct (phases_ok c name add OK) as (xh & yh & cc & g0 & g1 & g2 & EI & EG & EP). exists (put fs name (ori_head c xh yh cc)). split.
  - eexists [], _, _. split; [exact EP|]. cbn [concat run_ops fold_left]. apply file_crash_any. rewrite ori_concat. unfold ori_text. now eexists.
  - unfold cal_from_file. rewrite put_eq.
    assert (D : fromstring (ori_head c xh yh cc) = map (read_back 8) (xf_pos (cf_ext c)) ++ map (read_back 8) (xf_ang (cf_ext c)) ++ flat_map (map (read_back 7)) (xf_dm (cf_ext c)) ++ map (read_back 4) [xh; yh; cc]).
    { unfold fromstring, ori_head. rewrite !words_line, words_nl, words_lines, words_nl, words_line. rewrite <- (app_nil_r (line (row 4 [cc]))), words_line. rewrite !prefix_row, prefix_rows, !prefix_row. reflexivity. }
    rewrite D. unfold same_pose. rewrite EI.
    destruct OK as (L1 & L2 & L3 & L4 & _ & _ & _ & F1 & F2 & F3 & F4 & F5). rewrite EI in F3. destruct (xf_pos (cf_ext c)) as [|x [|y [|z [|]]]]; try discriminate. destruct (xf_ang (cf_ext c)) as [|o [|p [|k [|]]]]; try discriminate.
    destruct (xf_dm (cf_ext c)) as [|r1 [|r2 [|r3 [|]]]]; try discriminate. inversion_clear L4 as [|? ? R1 L4']. inversion_clear L4' as [|? ? R2 L4'']. inversion_clear L4'' as [|? ? R3 _].
    destruct r1 as [|d11 [|d12 [|d13 [|]]]]; try discriminate. destruct r2 as [|d21 [|d22 [|d23 [|]]]]; try discriminate. destruct r3 as [|d31 [|d32 [|d33 [|]]]]; try discriminate.
    eexists. split; [reflexivity|]. cbn [cf_glass cf_ext xf_pos xf_ang xf_dm cf_int]. split; [reflexivity|].
    split; [|exact (map_digits 4 [xh; yh; cc] F3)]. split; [exact (map_digits 8 [x; y; z] F1)|]. split; [exact (map_digits 8 [o; p; k] F2)|]. do 3 eexists. split; reflexivity.
Qed.
Print Assumptions C95_no_glass_refuted.

(** Refuted: both files belong to one calibration.  A crash between the two leaves the new orientation with the distortion of the
    calibration that was written before; it is read without any error. *)
Theorem C95_mixed_refuted : forall can_write fsin fcos old c name add fs0, can_write name = true -> can_write add = true -> name <> add -> cal_ok old -> cal_ok c ->
  let fs := fst (cal_write can_write fs0 old name (Some add)) in
  exists fs', crash_in (cal_phases c name add) fs fs' /\
  exists c', cal_from_file fsin fcos fs' name (Some add) = Ok c' /\ whole_orientation fsin fcos c c' /\ Forall2 (to_digits 8) (cf_added old) (cf_added c').
Proof.
  intros can_write fsin fcos old c name add fs0 W1 W2 N OO OK fs. destruct (phases_ok c name add OK) as (xh & yh & cc & g0 & g1 & g2 & EI & EG & EP).
  set (fs' := put fs name (ori_text c xh yh cc g0 g1 g2)). exists fs'. split.
  - eexists [], _, _. split; [exact EP|]. cbn [concat run_ops fold_left]. apply file_crash_any. rewrite ori_concat. apply starts_refl.
  - (* the calibration with the old distortion is the one that is read *)
    set (mix := mk_calf (cf_ext c) (cf_int c) (cf_glass c) (cf_added old)).
    assert (OM : cal_ok mix). { destruct OK as (? & ? & ? & ? & ? & ? & _ & ? & ? & ? & ? & _). destruct OO as (_ & _ & _ & _ & _ & _ & ? & _ & _ & _ & _ & ?). unfold cal_ok, mix. cbn [cf_ext cf_int cf_glass cf_added]. tauto. }
    pose proof (C37_round_trip can_write fsin fcos fs0 mix name add W1 W2 N OM) as RT. 
    assert (EW : fs' name = fst (cal_write can_write fs0 mix name (Some add)) name /\ fs' add = fst (cal_write can_write fs0 mix name (Some add)) add).
    { unfold fs', fs. rewrite put_eq, put_neq by congruence. unfold cal_write, write_ori. rewrite W1, W2. unfold mix. cbn [cf_int cf_glass cf_added]. rewrite EI, EG.
      destruct OO as (_ & _ & _ & _ & L5 & L6 & L7 & _). destruct (cf_int old) as [|? [|? [|? [|]]]]; try discriminate. destruct (cf_glass old) as [|? [|? [|? [|]]]]; try discriminate.
      destruct (cf_added old) as [|a0 [|a1 [|a2 [|a3 [|a4 [|a5 [|a6 [|]]]]]]]]; try discriminate. cbn [fst]. rewrite put_neq, !put_eq by congruence. split; reflexivity. }
    destruct (cal_write can_write fs0 mix name (Some add)) as [fsm r]. cbn [fst] in EW. destruct RT as (_ & _ & c' & RD & D1 & D2 & D3 & D4 & D5 & D6 & _). exists c'.
    assert (SAME : cal_from_file fsin fcos fs' name (Some add) = cal_from_file fsin fcos fsm name (Some add)) by (unfold cal_from_file; destruct EW as (-> & ->); reflexivity).
    rewrite SAME. split; [exact RD|]. split; [|exact D6]. split; [|split; [exact D4|exact D5]]. split; [exact D1|]. split; [exact D2|exact D3].
Qed.
Print Assumptions C95_mixed_refuted.

(** Refuted: what is read is right.  The distortion file cut three characters before its end, inside its last number, 0.25: it is read
    as 0.2 and so on, without any error; likewise a camera distance of 70 that has become 7.  (Also the non-trivial case of C95_read.) *)
Lemma run_same ops : forall f g, (forall m, f m = g m) -> forall m, run_ops ops f m = run_ops ops g m.
Proof.
  induction ops as [|o ops IH]; intros f g X m; [apply X|]. cbn [run_ops fold_left]. apply IH. clear m. intros m. destruct o as [n|n t]; cbn [do_op]; [|rewrite (X n)];
    (destruct (teqb_spec m n) as [->|M]; [now rewrite !put_eq|rewrite !put_neq by assumption; apply X]).
Qed.
Lemma after_crash_ext ops fs1 fs2 fs' : (forall m, fs2 m = fs1 m) -> after_crash ops fs1 fs' -> after_crash ops fs2 fs'.
Proof.
  intros X (fin & rest & E & H). exists fin, rest. split; [exact E|]. intros m. rewrite X. split; [apply H|]. intros O. destruct (proj2 (H m) O) as (t & T & c & R & ST). exists t. split; [exact T|]. exists c. split; [|exact ST].
  rewrite <- R. apply run_same. exact X.
Qed.
Definition cal95 : calf := mk_calf (cf_ext sample_cal) (cf_int sample_cal) (cf_glass sample_cal) [fzero; fzero; fzero; fzero; fzero; f_of_Z 1; f_of_dec false 25 2].
Definition add95 : text := line (row 8 (cf_added cal95)).
Definition ori95 : text := ori_text cal95 fzero fzero (f_of_Z 70) fzero fzero (f_of_Z 50).
Theorem C95_digit_refuted : cal_ok cal95 /\
  (exists fs', crash_in (cal_phases cal95 (txt "a") (txt "b")) (fun _ => None) fs' /\
     match cal_from_file (fun _ => fzero) (fun _ => f_of_Z 1) fs' (txt "a") (Some (txt "b")) with
     | Ok c => cf_added c = [fzero; fzero; fzero; fzero; fzero; f_of_Z 1; f_of_dec false 2 1] | Exn _ => False end) /\
  (exists fs', crash_in (cal_phases cal95 (txt "a") (txt "b")) (fun _ => None) fs' /\
     match cal_from_file (fun _ => fzero) (fun _ => f_of_Z 1) fs' (txt "a") None with
     | Ok c => cf_int c = [fzero; fzero; f_of_Z 7] /\ cf_glass c = [] | Exn _ => False end).
Proof.
  assert (OK : cal_ok cal95).
  { destruct C37_example as (L1 & L2 & L3 & L4 & L5 & L6 & _ & F1 & F2 & F3 & F4 & _). unfold cal_ok, cal95. cbn [cf_ext cf_int cf_glass cf_added]. repeat (split; [first [assumption|reflexivity]|]). fins. }
  split; [exact OK|]. destruct (phases_ok cal95 (txt "a") (txt "b") OK) as (xh & yh & cc & g0 & g1 & g2 & EI & EG & EP). injection EI as <- <- <-. injection EG as <- <- <-. split.
  - exists (put (put (fun _ => None) (txt "a") ori95) (txt "b") (firstn (length add95 - 8) add95)). split; [|vm_compute; reflexivity].
    eexists [_], _, []. split; [exact EP|]. cbn [concat]. rewrite app_nil_r.
    apply after_crash_ext with (put (fun _ => None) (txt "a") ori95); [intros m; rewrite run_file, ori_concat; reflexivity|].
    apply file_crash_any. cbn [concat]. rewrite app_nil_r. exists (skipn (length add95 - 8) add95). symmetry. exact (firstn_skipn (length add95 - 8) add95).
  - set (h := ori_head cal95 fzero fzero (f_of_Z 70)). exists (put (fun _ => None) (txt "a") (firstn (length h - 7) h)). split; [|vm_compute; split; reflexivity].
    eexists [], _, _. split; [exact EP|]. cbn [concat run_ops fold_left]. apply file_crash_any. rewrite ori_concat. apply starts_trans with h; [exists (skipn (length h - 7) h); symmetry; apply firstn_skipn|]. unfold ori_text. now eexists.
Qed.
Print Assumptions C95_digit_refuted.
