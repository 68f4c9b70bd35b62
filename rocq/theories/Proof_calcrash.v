(** Proofs for C95. *)
From Verif Require Import F64 F64R Model_text Proof_text Proof_text2 Model_corr Model_track Model_io Spec_io Proof_io Model_crash Spec_crash Proof_crash Model_par Spec_par Proof_par Proof_par2 Proof_par3 Prop_par Model_calcrash Spec_calcrash Lib Base.
Local Open Scope Z_scope.

(** the words of a beginning of a text are words of the text, but for the last *)
Lemma first_word T : forall cur, cur <> [] -> exists s r, split_aux T cur = (rev cur ++ s) :: r.
Proof.
  induction T as [|c T IH]; intros cur N; cbn [split_aux].
  - destruct cur as [|a cur]; [congruence|]. exists [], []. now rewrite app_nil_r.
  - destruct (is_space c).
    + destruct cur as [|a cur]; [congruence|]. exists [], (split_aux T []). now rewrite app_nil_r.
    + destruct (IH (c :: cur) ltac:(discriminate)) as (s & r & ->). exists (c :: s), r. cbn [rev]. now rewrite <- app_assoc.
Qed.
Lemma split_begin t : forall T cur, starts t T -> exists k,
  split_aux t cur = firstn k (split_aux T cur) \/
  exists w v, nth_error (split_aux T cur) k = Some v /\ split_aux t cur = firstn k (split_aux T cur) ++ [w].
Proof.
  induction t as [|c t IH]; intros T cur (s & ->).
  - cbn [app]. destruct cur as [|a cur]; [exists 0%nat; now left|]. exists 0%nat. right. destruct (first_word s (a :: cur) ltac:(discriminate)) as (x & r & ->). do 2 eexists. split; reflexivity.
  - cbn [app split_aux]. assert (ST : starts t (t ++ s)) by (now exists s). destruct (is_space c); [destruct cur as [|a cur]|]; try now apply IH.
    destruct (IH (t ++ s) [] ST) as (k & [E|(w & v & V & E)]); exists (S k); cbn [firstn nth_error]; [left|right; exists w, v; split; [exact V|]]; rewrite E; reflexivity.
Qed.
Lemma prefix_firstn ws : Forall (fun w => exists x, parse_float w = Ok x) ws -> forall k, parse_prefix (firstn k ws) = firstn k (parse_prefix ws) /\ length (parse_prefix ws) = length ws /\
  forall rest, parse_prefix (firstn k ws ++ rest) = firstn k (parse_prefix ws) ++ parse_prefix rest.
Proof.
  intros F. induction F as [|w ws (x & P) F IH]; intros k; [destruct k; repeat split; reflexivity|]. destruct (IH (pred k)) as (A & B & C). cbn [parse_prefix]. rewrite P. cbn [length].
  destruct k as [|k]; [repeat split; [f_equal; exact B]|]. cbn [pred firstn parse_prefix app] in *. rewrite P, A, B. repeat split. intros rest. now rewrite C.
Qed.
Lemma begin_data t T : starts t T -> Forall (fun w => exists x, parse_float w = Ok x) (words T) ->
  (length (fromstring t) <= length (fromstring T))%nat /\ firstn (length (fromstring t) - 1) (fromstring t) = firstn (length (fromstring t) - 1) (fromstring T).
Proof.
  intros ST F. unfold fromstring, words in *. destruct (split_begin t T [] ST) as (k & H). set (ws := split_aux T []) in *. destruct (prefix_firstn ws F k) as (A & B & C). destruct H as [->|(w & v & V & ->)].
  - rewrite A, firstn_length. split; [lia|]. rewrite firstn_firstn. f_equal. lia.
  - rewrite C. assert (K : (k < length ws)%nat) by (apply nth_error_Some; congruence). rewrite <- B in K.
    assert (L : (length (parse_prefix [w]) <= 1)%nat) by (cbn [parse_prefix]; destruct (parse_float w); cbn [length]; lia).
    rewrite app_length, firstn_length. split; [lia|]. rewrite firstn_app, firstn_firstn, firstn_length. replace (_ - _ - _)%nat with 0%nat by lia. cbn [firstn]. rewrite app_nil_r. f_equal. lia.
Qed.
Lemma row_parses k xs : Forall (fun w => exists x, parse_float w = Ok x) (map (print_fixed k) xs).
Proof. apply Forall_map, Forall_forall. intros x _. eexists. apply parse_print_fixed. Qed.
Lemma ori_parses c xh yh cc g0 g1 g2 : Forall (fun w => exists x, parse_float w = Ok x) (words (ori_text c xh yh cc g0 g1 g2)).
Proof.
  unfold ori_text, ori_head. rewrite <- !app_assoc. rewrite !words_line, words_nl, words_lines, words_nl, !words_line, words_nl. rewrite <- (app_nil_r (line (row 15 _))), words_line.
  repeat (apply Forall_app; split); try apply row_parses; [|constructor]. induction (xf_dm (cf_ext c)) as [|r rs IH]; [constructor|]. cbn [flat_map]. apply Forall_app. split; [apply row_parses|exact IH].
Qed.
(** the first line of a beginning of a text of one line *)
Lemma begin_line t w : noline w -> starts t (line w) -> exists u, fst (readline (lines t)) = u /\ starts u w /\ (t = u \/ t = line w /\ u = w).
Proof.
  intros N (s & E). unfold line in *. destruct (cut w [nl] t s E) as [(u & -> & ->)|(u & -> & E' & NE)].
  - exists t. split; [|split; [now exists u|now left]]. apply noline_sub in N. destruct t as [|a t]; [reflexivity|]. now rewrite lines_last by (assumption || discriminate).
  - destruct u as [|b [|d u]]; [congruence| |discriminate]. injection E' as <- <-. exists w. split; [|split; [exists []; now rewrite app_nil_r|now right]].
    change (w ++ [nl]) with (line w). rewrite <- (app_nil_r (line w)), lines_cons by assumption. reflexivity.
Qed.

(** ---- one file ---- *)
Lemma run_writes name ts : forall fs t, fs name = Some t -> forall m, run_ops (map (Write name) ts) fs m = put fs name (t ++ concat ts) m.
Proof.
  induction ts as [|a ts IH]; intros fs t E m; cbn [map concat].
  - cbn. rewrite app_nil_r. destruct (teqb_spec m name) as [->|M]; [now rewrite put_eq|now rewrite put_neq].
  - cbn [run_ops fold_left do_op]. change (fold_left do_op ?l ?f) with (run_ops l f). rewrite E. rewrite (IH _ (t ++ a) (put_eq _ _ _)). rewrite <- app_assoc.
    destruct (teqb_spec m name) as [->|M]; [now rewrite !put_eq|now rewrite !put_neq].
Qed.
Lemma run_file name ts fs m : run_ops (Open name :: map (Write name) ts) fs m = put fs name (concat ts) m.
Proof.
  cbn [run_ops fold_left do_op]. change (fold_left do_op ?l ?f) with (run_ops l f). rewrite (run_writes name ts _ [] (put_eq _ _ _)). cbn [app].
  destruct (teqb_spec m name) as [->|M]; [now rewrite !put_eq|now rewrite !put_neq].
Qed.
Lemma file_crash name ts fs fs' : after_crash (Open name :: map (Write name) ts) fs fs' ->
  (forall m, m <> name -> fs' m = fs m) /\ (fs' name = fs name \/ exists t, fs' name = Some t /\ starts t (concat ts)).
Proof.
  intros (fin & rest & E & H).
  assert (NO : forall m, opened m (fin ++ rest) -> m = name). { intros m O. rewrite <- E in O. destruct O as [O|O]; [now injection O|]. apply in_map_iff in O. destruct O as (x & X & _). discriminate. }
  split.
  - intros m M. apply H. intros O. apply M, NO, in_or_app. now left.
  - destruct fin as [|o fin]; [left; apply H; intros []|]. right. cbn [app] in E. injection E as <- E.
    destruct (proj2 (H name) (or_introl eq_refl)) as (t & T & c & R & S0). exists t. split; [exact T|].
    assert (NR : ~ opened name rest). { intros O. assert (I : In (Open name) (fin ++ rest)) by (apply in_or_app; now right). rewrite <- E in I. apply in_map_iff in I. destruct I as (x & X & _). discriminate. }
    destruct (run_grows rest name NR _ _ R) as (c1 & R1 & S1). rewrite <- run_app in R1. cbn [app] in R1. rewrite <- E, run_file, put_eq in R1. injection R1 as ->. now apply starts_trans with c.
Qed.
Lemma file_crash_any name ts fs t : starts t (concat ts) -> after_crash (Open name :: map (Write name) ts) fs (put fs name t).
Proof.
  intros ST. exists (Open name :: map (Write name) ts), []. split; [now rewrite app_nil_r|]. intros m. split.
  - intros N. apply put_neq. intros ->. apply N. now left.
  - intros [O|O]; [|apply in_map_iff in O; destruct O as (x & X & _); discriminate]. injection O as ->. exists t. rewrite put_eq. split; [reflexivity|]. exists (concat ts). rewrite run_file, put_eq. split; [reflexivity|exact ST].
Qed.

(** ---- the two files of a calibration ---- *)
Definition head_chunks (c : calf) (xh yh cc : f64) : list text :=
  [line (row 8 (xf_pos (cf_ext c))); line (row 8 (xf_ang (cf_ext c))) ++ [nl]] ++ map (fun r => line (row 7 r)) (xf_dm (cf_ext c)) ++ [[nl] ++ line (row 4 [xh; yh]) ++ line (row 4 [cc])].
Definition glass_chunk (g0 g1 g2 : f64) : text := [nl] ++ line (row 15 [g0; g1; g2]).
Lemma head_concat c xh yh cc : concat (head_chunks c xh yh cc) = ori_head c xh yh cc.
Proof.
  unfold head_chunks, ori_head. cbn [app concat]. rewrite concat_app, <- flat_map_concat_map. cbn [concat app]. rewrite app_nil_r, <- !app_assoc. reflexivity.
Qed.
Lemma ori_concat c xh yh cc g0 g1 g2 : concat (head_chunks c xh yh cc ++ [glass_chunk g0 g1 g2]) = ori_text c xh yh cc g0 g1 g2.
Proof. rewrite concat_app, head_concat. unfold glass_chunk, ori_text. cbn [concat]. now rewrite app_nil_r. Qed.
Lemma ori_ops_eq c name xh yh cc : cf_int c = [xh; yh; cc] ->
  ori_ops c name = Open name :: map (Write name) (head_chunks c xh yh cc ++ match cf_glass c with g0 :: g1 :: g2 :: _ => [glass_chunk g0 g1 g2] | _ => [] end).
Proof.
  intros E. unfold ori_ops, head_chunks. rewrite E. cbn [app map]. rewrite <- app_assoc. rewrite !map_app, map_map. cbn [map app]. do 5 f_equal. now destruct (cf_glass c) as [|g0 [|g1 [|g2 g]]].
Qed.
Lemma add_ops_eq c name : add_ops c name = Open name :: map (Write name) match cf_added c with a0 :: a1 :: a2 :: a3 :: a4 :: a5 :: a6 :: _ => [line (row 8 [a0; a1; a2; a3; a4; a5; a6])] | _ => [] end.
Proof. unfold add_ops. f_equal. destruct (cf_added c) as [|a0 [|a1 [|a2 [|a3 [|a4 [|a5 [|a6 [|]]]]]]]]; reflexivity. Qed.
Lemma cal_run can_write fs c name add : can_write name = true -> can_write add = true -> length (cf_int c) = 3%nat ->
  forall m, run_ops (concat (cal_phases c name add)) fs m = fst (cal_write can_write fs c name (Some add)) m.
Proof.
  intros W1 W2 L m. unfold cal_write, write_ori, cal_phases. rewrite W1, W2. destruct (cf_int c) as [|xh [|yh [|cc [|]]]] eqn:E; try discriminate. rewrite (ori_ops_eq _ _ _ _ _ E), add_ops_eq.
  destruct (cf_glass c) as [|g0 [|g1 [|g2 g]]]; cbn [concat]; rewrite ?app_nil_r, ?run_file, ?head_concat; try reflexivity.
  rewrite run_app, run_file.
  assert (X : run_ops (Open name :: map (Write name) (head_chunks c xh yh cc ++ [glass_chunk g0 g1 g2])) fs m = put fs name (ori_text c xh yh cc g0 g1 g2) m) by (rewrite run_file; now rewrite ori_concat).
  destruct (cf_added c) as [|a0 [|a1 [|a2 [|a3 [|a4 [|a5 [|a6 r]]]]]]]; cbn [concat fst]; rewrite ?app_nil_r;
    (destruct (teqb_spec m add) as [->|M]; [now rewrite !put_eq|rewrite !put_neq by assumption; exact X]).
Qed.

(** ---- what is read ---- *)
Lemma cal_dm fsin fcos fs name add c : cal_from_file fsin fcos fs name add = Ok c -> exists omega phi kappa, xf_ang (cf_ext c) = [omega; phi; kappa] /\ xf_dm (cf_ext c) = frotation fsin fcos omega phi kappa.
Proof.
  unfold cal_from_file. destruct (fs name) as [t|]; [|discriminate]. cbv zeta.
  intros E. apply bind_ok in E. destruct E as (pos & _ & E). apply bind_ok in E. destruct E as (ang & _ & E). destruct ang as [|omega [|phi [|kappa [|? ?]]]]; try discriminate. apply bind_ok in E. destruct E as (pp & _ & E).
  exists omega, phi, kappa. destruct add as [a|]; [|injection E as <-; split; reflexivity]. destruct (fs a) as [u|]; [|discriminate].
  apply bind_ok in E. destruct E as (xs & _ & E). apply bind_ok in E. destruct E as (r & _ & E). apply bind_ok in E. destruct E as (d & _ & E). apply bind_ok in E. destruct E as (af & _ & E). injection E as <-. split; reflexivity.
Qed.
Lemma F2_length {A B} (R : A -> B -> Prop) a b : Forall2 R a b -> length a = length b.
Proof. intros F. induction F as [|x y a b H F IH]; cbn [length]; [reflexivity|now rewrite IH]. Qed.
Lemma F2_firstn {A B} (R : A -> B -> Prop) k a b : Forall2 R a b -> Forall2 R (firstn k a) (firstn k b).
Proof. intros F. revert k. induction F as [|x y a b H F IH]; intros [|k]; cbn [firstn]; constructor; [exact H|apply IH]. Qed.
Lemma cut_read fsin fcos fs name add c c' xh yh cc g0 g1 g2 t : cal_ok c -> cf_int c = [xh; yh; cc] -> cf_glass c = [g0; g1; g2] ->
  fs name = Some t -> starts t (ori_text c xh yh cc g0 g1 g2) -> cal_from_file fsin fcos fs name add = Ok c' -> cut_orientation fsin fcos c c'.
Proof.
  intros OK EI EG ET ST RD. pose proof (cal_dm _ _ _ _ _ _ RD) as DM. apply C37_read in RD. destruct RD as (t' & T' & RD). assert (t' = t) as -> by congruence. cbv zeta in RD. destruct RD as (LN & RP & RA & RI & RG & _).
  destruct (begin_data _ _ ST (ori_parses _ _ _ _ _ _ _)) as (LM & AG). rewrite ori_data in LM, AG. set (data := fromstring t) in *. clearbody data.
  destruct OK as (L1 & L2 & L3 & L4 & _ & _ & _ & F1 & F2 & F3 & F4 & F5). unfold cut_orientation, same_pose. destruct (xf_pos (cf_ext c)) as [|x [|y [|z [|]]]]; try discriminate. destruct (xf_ang (cf_ext c)) as [|o [|p [|k [|]]]]; try discriminate.
  destruct (xf_dm (cf_ext c)) as [|r1 [|r2 [|r3 [|]]]]; try discriminate. inversion_clear L4 as [|? ? R1 L4']. inversion_clear L4' as [|? ? R2 L4'']. inversion_clear L4'' as [|? ? R3 _].
  destruct r1 as [|d11 [|d12 [|d13 [|]]]]; try discriminate. destruct r2 as [|d21 [|d22 [|d23 [|]]]]; try discriminate. destruct r3 as [|d31 [|d32 [|d33 [|]]]]; try discriminate.
  cbn [map app flat_map length] in LM, AG. set (d0 := _ :: _ : list f64) in AG.
  assert (G : forall a b, (a + b <= length data - 1)%nat -> firstn b (skipn a data) = firstn b (skipn a d0)).
  { intros a b B. rewrite !firstn_skipn_comm. assert (E : firstn (a + b) (firstn (length data - 1) data) = firstn (a + b) (firstn (length data - 1) d0)) by now rewrite AG. rewrite !firstn_firstn in E. replace (Nat.min _ _) with (a + b)%nat in E by lia. now rewrite E. }
  assert (LG : length (cf_glass c') = (length data - 18)%nat) by (rewrite RG; apply skipn_length).
  assert (P0 : firstn 3 data = firstn 3 d0) by (apply (G 0 3)%nat; lia).
  split; [split; [|split; [|exact DM]]|].
  - rewrite RP, P0. change (firstn 3 d0) with (map (read_back 8) [x; y; z]). now apply map_digits.
  - rewrite RA, (G 3 3)%nat by lia. change (firstn 3 (skipn 3 d0)) with (map (read_back 8) [o; p; k]). now apply map_digits.
  - split; [rewrite RI, firstn_length, skipn_length; lia|]. rewrite EI, EG in *. split; [|split; [|split; [lia|]]].
    + rewrite RI, firstn_firstn. change (Nat.min 2 3) with 2%nat. rewrite (G 15 2)%nat by lia. change (firstn 2 (skipn 15 d0)) with (firstn 2 (map (read_back 4) [xh; yh; cc])). now apply F2_firstn, map_digits.
    + intros NG. assert (cf_glass c' <> []) as NG' by exact NG. destruct (cf_glass c') as [|g r] eqn:E; [congruence|]. cbn [length] in LG. rewrite RI, (G 15 3)%nat by lia. change (firstn 3 (skipn 15 d0)) with (map (read_back 4) [xh; yh; cc]). now apply map_digits.
    + cbv zeta. rewrite LG. destruct (Nat.eq_dec (length data) 18) as [E|NE]; [replace (_ - _)%nat with 0%nat by lia; constructor|]. rewrite RG, (G 18 _)%nat by lia.
      change (skipn 18 d0) with (map (read_back 15) [g0; g1; g2]). now apply F2_firstn, map_digits.
Qed.
Lemma whole_read fsin fcos fs name add c c' xh yh cc g0 g1 g2 : cal_ok c -> cf_int c = [xh; yh; cc] -> cf_glass c = [g0; g1; g2] ->
  fs name = Some (ori_text c xh yh cc g0 g1 g2) -> cal_from_file fsin fcos fs name add = Ok c' -> whole_orientation fsin fcos c c'.
Proof.
  intros OK EI EG ET RD. pose proof (cal_dm _ _ _ _ _ _ RD) as DM. apply C37_read in RD. destruct RD as (t' & T' & RD). assert (t' = ori_text c xh yh cc g0 g1 g2) as -> by congruence. cbv zeta in RD. destruct RD as (LN & RP & RA & RI & RG & _).
  rewrite ori_data in *. unfold whole_orientation, same_pose. rewrite EI, EG in *.
  destruct OK as (L1 & L2 & L3 & L4 & _ & _ & _ & F1 & F2 & F3 & F4 & F5). rewrite EI in F3. rewrite EG in F4. destruct (xf_pos (cf_ext c)) as [|x [|y [|z [|]]]]; try discriminate. destruct (xf_ang (cf_ext c)) as [|o [|p [|k [|]]]]; try discriminate.
  destruct (xf_dm (cf_ext c)) as [|r1 [|r2 [|r3 [|]]]]; try discriminate. inversion_clear L4 as [|? ? R1 L4']. inversion_clear L4' as [|? ? R2 L4'']. inversion_clear L4'' as [|? ? R3 _].
  destruct r1 as [|d11 [|d12 [|d13 [|]]]]; try discriminate. destruct r2 as [|d21 [|d22 [|d23 [|]]]]; try discriminate. destruct r3 as [|d31 [|d32 [|d33 [|]]]]; try discriminate.
  rewrite RP, RA, RI, RG. split; [split; [exact (map_digits 8 [x; y; z] F1)|split; [exact (map_digits 8 [o; p; k] F2)|]]|split; [exact (map_digits 4 [xh; yh; cc] F3)|exact (map_digits 15 [g0; g1; g2] F4)]]. 
  rewrite <- RA. exact DM.
Qed.
Lemma added_read fsin fcos fs name add c c' t : cal_ok c -> fs add = Some t -> starts t (line (row 8 (cf_added c))) -> cal_from_file fsin fcos fs name (Some add) = Ok c' ->
  length (cf_added c') = 7%nat /\ Forall2 (to_digits 8) (firstn 6 (cf_added c)) (firstn 6 (cf_added c')).
Proof.
  intros OK ET ST RD. apply C37_read in RD. destruct RD as (t' & T' & RD). cbv zeta in RD. destruct RD as (_ & _ & _ & _ & _ & u & U & L & P). assert (u = t) as -> by congruence. split; [exact L|].
  destruct OK as (_ & _ & _ & _ & _ & _ & L7 & _ & _ & _ & _ & F5).
  destruct (begin_line t (row 8 (cf_added c)) (row_noline _ _) ST) as (w & E & SW & _). rewrite E in P.
  pose proof (F2_length _ _ _ P) as LW. rewrite L in LW. unfold words in *. destruct (split_begin w (row 8 (cf_added c)) [] SW) as (k & H). change (split_aux (row 8 (cf_added c)) []) with (words (row 8 (cf_added c))) in H. rewrite words_row_end in H.
  assert (K : forall ws, ws = map (print_fixed 8) (firstn 6 (cf_added c)) -> forall xs, Forall2 (fun v x => parse_float v = Ok x) ws xs -> xs = map (read_back 8) (firstn 6 (cf_added c))).
  { intros ws -> xs. generalize (firstn 6 (cf_added c)) as l. intros l. revert xs. induction l as [|a l IH]; intros xs Q; inversion_clear Q as [|? ? ? ? Q1 Q2]; [reflexivity|]. rewrite parse_print_fixed in Q1. injection Q1 as <-. cbn [map]. f_equal. now apply IH. }
  apply (F2_firstn _ 6) in P. assert (W6 : firstn 6 (split_aux w []) = map (print_fixed 8) (firstn 6 (cf_added c))).
  { rewrite <- firstn_map. destruct H as [H|(w1 & v & V & H)]; rewrite H in LW |- *.
    - rewrite firstn_length, map_length in LW. rewrite firstn_firstn. f_equal. lia.
    - assert (KL : (k < length (map (print_fixed 8) (cf_added c)))%nat) by (apply nth_error_Some; congruence). rewrite app_length, firstn_length in LW. rewrite map_length in *. cbn [length] in LW.
      assert (k = 6%nat) as -> by lia. rewrite firstn_app, firstn_firstn, firstn_length, map_length, L7. cbn [Nat.min Nat.sub firstn]. apply app_nil_r. }
  rewrite (K _ W6 _ P). apply map_digits. rewrite <- (firstn_skipn 6 (cf_added c)) in F5. now apply Forall_app in F5.
Qed.
