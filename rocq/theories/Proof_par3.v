(** Orientation files. *)
From Verif Require Import F64 F64R Model_text Proof_text Proof_text2 Model_corr Model_track Model_io Spec_io Proof_io Model_par Spec_par Proof_par Proof_par2 Lib Base.
Local Open Scope Z_scope.

Lemma words_row k xs c rest : is_space c = true -> words (row k xs ++ c :: rest) = map (print_fixed k) xs ++ words rest.
Proof.
  intros S. induction xs as [|x xs IH]; [now apply split_space|]. destruct xs as [|y xs].
  - cbn [row map app]. apply split_word_space; [apply print_fixed_word|assumption].
  - change (row k (x :: y :: xs)) with (print_fixed k x ++ sp :: row k (y :: xs)). rewrite <- app_assoc. cbn [app].
    rewrite split_word_space by (try apply print_fixed_word; reflexivity). rewrite IH. reflexivity.
Qed.
Lemma words_line k xs rest : words (line (row k xs) ++ rest) = map (print_fixed k) xs ++ words rest.
Proof. unfold line. rewrite <- app_assoc. now apply words_row. Qed.
Lemma words_nl rest : words ([nl] ++ rest) = words rest.
Proof. now apply split_space. Qed.
Lemma words_lines k rs rest : words (flat_map (fun r => line (row k r)) rs ++ rest) = flat_map (map (print_fixed k)) rs ++ words rest.
Proof.
  induction rs as [|r rs IH]; [reflexivity|]. cbn [flat_map]. rewrite <- !app_assoc. rewrite words_line. now rewrite IH.
Qed.
Lemma prefix_row k xs ws : parse_prefix (map (print_fixed k) xs ++ ws) = map (read_back k) xs ++ parse_prefix ws.
Proof. induction xs as [|x xs IH]; [reflexivity|]. cbn [map app parse_prefix]. now rewrite parse_print_fixed, IH. Qed.
Lemma prefix_rows k rs ws : parse_prefix (flat_map (map (print_fixed k)) rs ++ ws) = flat_map (map (read_back k)) rs ++ parse_prefix ws.
Proof. induction rs as [|r rs IH]; [reflexivity|]. cbn [flat_map]. rewrite <- !app_assoc. now rewrite prefix_row, IH. Qed.
Lemma ori_data c xh yh cc g0 g1 g2 : fromstring (ori_text c xh yh cc g0 g1 g2) =
  map (read_back 8) (xf_pos (cf_ext c)) ++ map (read_back 8) (xf_ang (cf_ext c)) ++ flat_map (map (read_back 7)) (xf_dm (cf_ext c)) ++
  map (read_back 4) [xh; yh; cc] ++ map (read_back 15) [g0; g1; g2].
Proof.
  unfold fromstring, ori_text, ori_head. rewrite <- !app_assoc. rewrite !words_line, words_nl, words_lines, words_nl, !words_line, words_nl. rewrite <- (app_nil_r (line (row 15 _))), words_line.
  rewrite !prefix_row, prefix_rows, !prefix_row. reflexivity.
Qed.
Lemma row_noline k xs : noline (row k xs).
Proof.
  induction xs as [|x xs IH]; [constructor|]. destruct xs as [|y xs]; [apply nospace_noline, print_fixed_word|].
  apply noline_app; [apply nospace_noline, print_fixed_word|]. constructor; [discriminate|exact IH].
Qed.
Lemma words_row_end k xs : words (row k xs) = map (print_fixed k) xs.
Proof.
  induction xs as [|x xs IH]; [reflexivity|]. destruct xs as [|y xs]; [apply split_word, print_fixed_word|].
  change (row k (x :: y :: xs)) with (print_fixed k x ++ sp :: row k (y :: xs)). rewrite split_word_space by (try apply print_fixed_word; reflexivity). now rewrite IH.
Qed.
Lemma parse_row k xs : parse_floats (map (print_fixed k) xs) = Ok (map (read_back k) xs).
Proof. induction xs as [|x xs IH]; [reflexivity|]. cbn [map parse_floats]. rewrite parse_print_fixed. cbn [bind]. now rewrite IH. Qed.

Section O.
Variable can_write : text -> bool.
Variables fsin fcos : f64 -> f64.
Definition rot_of (ang : list f64) : list (list f64) := match ang with [o; p; k] => frotation fsin fcos o p k | _ => [] end.
(** what a calibration becomes by writing and reading *)
Definition back_cal (c : calf) : calf :=
  let ang := map (read_back 8) (xf_ang (cf_ext c)) in
  mk_calf (mk_extf (map (read_back 8) (xf_pos (cf_ext c))) ang (rot_of ang)) (map (read_back 4) (cf_int c)) (map (read_back 15) (cf_glass c)) (map (read_back 8) (cf_added c)).

Lemma write_read fs c name add : can_write name = true -> can_write add = true -> name <> add -> cal_ok c ->
  let '(fs', r) := cal_write can_write fs c name (Some add) in
  r = Ok tt /\ (forall m, m <> name -> m <> add -> fs' m = fs m) /\ cal_from_file fsin fcos fs' name (Some add) = Ok (back_cal c) /\
  exists c', cal_from_file fsin fcos fs' name None = Ok c' /\ cf_ext c' = cf_ext (back_cal c) /\ cf_int c' = cf_int (back_cal c) /\ cf_glass c' = cf_glass (back_cal c) /\ cf_added c' = added_default.
Proof.
  intros W1 W2 N (L1 & L2 & L3 & L4 & L5 & L6 & L7 & _). unfold cal_write, write_ori. rewrite W1. destruct c as [[pos ang dm] int glass added].
  cbn [cf_ext cf_int cf_glass cf_added xf_pos xf_ang xf_dm] in *.
  destruct int as [|xh [|yh [|cc [|]]]]; try discriminate. destruct glass as [|g0 [|g1 [|g2 [|]]]]; try discriminate.
  destruct added as [|a0 [|a1 [|a2 [|a3 [|a4 [|a5 [|a6 [|]]]]]]]]; try discriminate. rewrite W2. split; [reflexivity|].
  split; [intros m M1 M2; now rewrite !put_neq|].
  destruct pos as [|x [|y [|z [|]]]]; try discriminate. destruct ang as [|o [|p [|k [|]]]]; try discriminate. destruct dm as [|r1 [|r2 [|r3 [|]]]]; try discriminate.
  inversion_clear L4 as [|? ? R1 L4']. inversion_clear L4' as [|? ? R2 L4'']. inversion_clear L4'' as [|? ? R3 _].
  destruct r1 as [|d11 [|d12 [|d13 [|]]]]; try discriminate. destruct r2 as [|d21 [|d22 [|d23 [|]]]]; try discriminate. destruct r3 as [|d31 [|d32 [|d33 [|]]]]; try discriminate.
  unfold cal_from_file. rewrite (put_neq _ add _ name N), !put_eq, ori_data. cbn [cf_ext xf_pos xf_ang xf_dm].
  cbn [map app flat_map firstn skipn shaped length Nat.eqb bind]. split; [|eexists; split; [reflexivity|repeat split]].
  rewrite <- (app_nil_r (line (row 8 _))), lines_cons by apply row_noline. cbn [readline fst]. rewrite words_row_end, parse_row. reflexivity.
Qed.
Lemma back_cal_ok c : cal_ok c -> cal_ok (back_cal c).
Proof.
  intros (L1 & L2 & L3 & L4 & L5 & L6 & L7 & F1 & F2 & F3 & F4 & F5). unfold cal_ok, back_cal. cbn [cf_ext cf_int cf_glass cf_added xf_pos xf_ang xf_dm].
  rewrite !map_length. destruct (xf_ang (cf_ext c)) as [|o [|p [|k [|]]]]; try discriminate. cbn [map rot_of].
  assert (K : forall k l, Forall float_ok l -> Forall float_ok (map (read_back k) l)) by (intros n l F; apply Forall_map; eapply Forall_impl; [|exact F]; intros a; apply back_ok).
  split; [assumption|]. split; [reflexivity|]. split; [reflexivity|]. split; [apply Forall_cons; [reflexivity|]; apply Forall_cons; [reflexivity|]; apply Forall_cons; [reflexivity|apply Forall_nil]|].
  repeat (split; [first [assumption|now apply K]|]). change [read_back 8 o; read_back 8 p; read_back 8 k] with (map (read_back 8) [o; p; k]). repeat (split; [now apply K|]). now apply K.
Qed.
Lemma map_idem k l : Forall float_ok l -> map (read_back k) (map (read_back k) l) = map (read_back k) l.
Proof. intros F. rewrite map_map. apply map_ext_in. intros x I. apply read_back_idem. rewrite Forall_forall in F. now apply F. Qed.
Lemma back_cal_idem c : cal_ok c -> back_cal (back_cal c) = back_cal c.
Proof.
  intros (_ & _ & _ & _ & _ & _ & _ & F1 & F2 & F3 & F4 & F5). unfold back_cal at 1. cbn [cf_ext cf_int cf_glass cf_added xf_pos xf_ang xf_dm back_cal].
  unfold back_cal. cbn [cf_ext cf_int cf_glass cf_added xf_pos xf_ang xf_dm]. now rewrite !map_idem.
Qed.
Lemma map_digits k l : Forall float_ok l -> Forall2 (to_digits k) l (map (read_back k) l).
Proof. intros F. induction F as [|x l X F IH]; [apply Forall2_nil|]. cbn [map]. apply Forall2_cons; [now apply back_digits|exact IH]. Qed.
End O.
