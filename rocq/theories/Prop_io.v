(** Files: the properties (see Spec_io.v for the vocabulary). *)
From Coq Require Import Reals Psatz.
From Verif Require Import F64 F64R Model_text Proof_text Proof_text2 Model_corr Model_track Model_io Spec_io Proof_io Proof_io2 Proof_io3 Proof_io4 Base.
Local Open Scope Z_scope.

(** ===== C28: target files ===== *)
Theorem C28_round_trip : forall can_write fs ts num base n name,
  0 < n -> ~ In "#"%char base -> In "%"%char base -> read_name base n = Ok name -> can_write name = true ->
  ts <> [] -> Forall target_ok ts -> 0 <= num <= Z.of_nat (length ts) ->
  let '(fs', r) := write_targets can_write fs ts num base n in
  r = Ok true /\ (forall m, m <> name -> fs' m = fs m) /\
  exists ts', read_targets fs' base n = Ok ts' /\ Forall2 (same_target 4) (firstn (Z.to_nat num) ts) ts' /\
    (num = Z.of_nat (length ts) -> let '(fs'', r'') := write_targets can_write fs' ts' num base n in r'' = Ok true /\ forall m, fs'' m = fs' m).
Proof.
  intros can_write fs ts num base n name N H P R W NE T NU. pose proof (targets_round_trip can_write fs ts num base n name N H P R W NE T NU) as RT.
  destruct (write_targets can_write fs ts num base n) as [fs' r]. destruct RT as (-> & -> & RD). split; [reflexivity|]. split; [intros m M; now apply put_neq|].
  exists (map back_target (firstn (Z.to_nat num) ts)). split; [exact RD|]. split.
  - assert (T' : Forall target_ok (firstn (Z.to_nat num) ts)). { rewrite <- (firstn_skipn (Z.to_nat num) ts) in T. now apply Forall_app in T. }
    clear - T'. induction T' as [|t l K T' IH]; cbn [map]; constructor; [now apply back_same|exact IH].
  - intros ->. rewrite Nat2Z.id, firstn_all. unfold write_targets. rewrite write_name_plain, R, W by assumption. destruct ts as [|t ts]; [contradiction|].
    cbn [map]. split; [reflexivity|]. intros m. rewrite put_put. unfold put. destruct (teqb m name); [|reflexivity]. f_equal. unfold targets_text. f_equal. 
    change (back_target t :: map back_target ts) with (map back_target (t :: ts)). revert T. generalize (t :: ts) as l. intros l T. clear - T.
    induction T as [|a l K T IH]; [reflexivity|]. cbn [map flat_map]. now rewrite IH, back_row.
Qed.
(** a camera without targets cannot be written; the existing file is destroyed *)
Theorem C28_empty_refuted : forall can_write fs base n name, write_name base n = Ok name -> can_write name = true ->
  write_targets can_write fs [] 0 base n = (put fs name [], Exn ValueError) /\
  (0 < n -> ~ In "#"%char base -> In "%"%char base -> read_targets (put fs name []) base n = Exn ValueError).
Proof.
  intros can_write fs base n name W C. unfold write_targets. rewrite W, C. split; [reflexivity|]. intros N H P. unfold read_targets.
  rewrite write_name_plain in W by assumption. rewrite W. cbn [bind]. rewrite put_eq. reflexivity.
Qed.
Definition nofiles : files := fun _ => None.
Definition plain_target : target := mk_target 3 (f_of_dec false 12345 2) (f_of_dec true 75 1) 9 3 3 1000 (-1).
(** frame number 0 is written under another name than it is read from; old-style names ("#") are written but not read *)
Theorem C28_names_refuted :
  (exists fs', write_targets (fun _ => true) nofiles [plain_target] 1 (txt "cam%d") 0 = (fs', Ok true) /\ read_targets fs' (txt "cam%d") 0 = Exn IOError) /\
  (exists fs', write_targets (fun _ => true) nofiles [plain_target] 1 (txt "cam.#") 5 = (fs', Ok true) /\ read_targets fs' (txt "cam.#") 5 = Exn TypeError).
Proof. split; (eexists; split; [reflexivity|vm_compute; reflexivity]). Qed.
(** the replacement name of frame 0, and of names without a place for the number *)
Theorem C28_other_names : forall can_write fs ts num base n,
  write_targets can_write fs ts num base 0 = write_targets can_write fs ts num base 123456789 /\
  (~ In "#"%char base -> ~ In "%"%char base -> write_targets can_write fs ts num base n = write_targets can_write fs ts num (base ++ txt "%05d") n) /\
  (forall a b, base = a ++ "#"%char :: b -> ~ In "#"%char a -> ~ In "#"%char b -> write_targets can_write fs ts num base n = write_targets can_write fs ts num (a ++ txt "%05d" ++ b) n).
Proof.
  intros. split; [reflexivity|].
  assert (HA0 : forall c t, ~ In c t -> has c t = false).
  { intros c t N. unfold has. destruct (existsb (aeqb c) t) eqn:E; auto. apply existsb_exists in E. destruct E as (x & I & Q).
    unfold aeqb in Q. destruct (ascii_dec c x); [subst x; contradiction|discriminate]. }
  split; [|intros a b -> NA NB; unfold write_targets, write_name;
    assert (FX : forall t, ~ In "#"%char t -> fix_hash t = t) by (intros t; induction t as [|c t IH]; intros N; [reflexivity|]; cbn [fix_hash flat_map]; fold (fix_hash t); rewrite IH by (intros I; apply N; now right);
      unfold aeqb; destruct (ascii_dec c "#"%char) as [->|]; [exfalso; apply N; now left|reflexivity]);
    assert (H1 : has "#" (a ++ "#"%char :: b) = true) by (unfold has; rewrite existsb_app; cbn [existsb]; unfold aeqb at 2; destruct (ascii_dec "#"%char "#"%char); [apply orb_true_r|congruence]);
    assert (H2 : has "#" (a ++ txt "%05d" ++ b) = false) by (unfold has; rewrite !existsb_app; fold (has "#" a) (has "#" b); rewrite (HA0 _ _ NA), (HA0 _ _ NB); reflexivity);
    assert (H3 : fix_hash (a ++ "#"%char :: b) = a ++ txt "%05d" ++ b) by (unfold fix_hash; rewrite flat_map_app; fold (fix_hash a); rewrite (FX _ NA); cbn [flat_map]; fold (fix_hash b); rewrite (FX _ NB); reflexivity);
    rewrite H1, H2, H3; reflexivity].
  intros H P. unfold write_targets, write_name.
  assert (HA : forall c t, ~ In c t -> has c t = false).
  { intros c t N. unfold has. destruct (existsb (aeqb c) t) eqn:E; auto. apply existsb_exists in E. destruct E as (x & I & Q).
    unfold aeqb in Q. destruct (ascii_dec c x); [subst x; contradiction|discriminate]. }
  rewrite (HA _ _ H), (HA _ _ P).
  assert (H' : has "#" (base ++ txt "%05d") = false). { unfold has. rewrite existsb_app. fold (has "#" base). rewrite (HA _ _ H). reflexivity. }
  assert (P' : has "%" (base ++ txt "%05d") = true). { unfold has. rewrite existsb_app. apply orb_true_r. }
  rewrite H', P'. reflexivity.
Qed.
(** integers pass through float64: from 2^53 on they can change *)
Theorem C28_big_integer_refuted : float_int (2 ^ 53 + 1) = 2 ^ 53 /\ forall z, exact_int z -> float_int z = z.
Proof. split; [vm_compute; reflexivity|exact float_int_exact]. Qed.
Lemma dec_fin s n k : (0 <= n < 2 ^ 53) -> (k <= 4)%nat -> fin (f_of_dec s n (Z.of_nat k)).
Proof.
  intros N K. apply f_of_dec_correct; [lia|]. apply Rle_lt_trans with (IZR (2 ^ 53)); [|pose proof (int_lt_big (2 ^ 53) ltac:(reflexivity)) as B; rewrite Rabs_pos_eq in B by (apply IZR_le; discriminate); exact B].
  apply rnd_abs_le; [apply rnd_int; reflexivity|]. pose proof (Proof_text2.pow10_gt k) as P.
  assert (P1 : (1 <= Proof_text2.pow10 k)%R) by (unfold Proof_text2.pow10; apply IZR_le; pose proof (pow10_pos k); lia).
  assert (Q : (0 <= IZR n <= IZR (2 ^ 53))%R) by (split; apply IZR_le; lia).
  unfold Rdiv. rewrite Rabs_mult, (Rabs_pos_eq (IZR n)) by lra. rewrite Rabs_pos_eq by (apply Rlt_le, Rinv_0_lt_compat; lra).
  apply Rle_trans with (IZR n * 1)%R; [|lra]. apply Rmult_le_compat_l; [lra|]. rewrite <- Rinv_1. apply Rinv_le_contravar; lra.
Qed.
Example C28_example : target_ok plain_target /\ read_name (txt "cam.%05d") 7 = Ok (txt "cam.00007_targets") /\
  match write_targets (fun _ => true) nofiles [plain_target] 1 (txt "cam.%05d") 7 with
  | (fs', Ok true) => option_map string_of_list_ascii (fs' (txt "cam.00007_targets")) = Some (String.append "1" (String nl (String.append "   3  123.4500   -7.5000     9     3     3  1000    -1" (String nl ""))))
  | _ => False end.
Proof.
  split; [|split; vm_compute; reflexivity]. unfold target_ok, plain_target. cbn [t_pnr t_n t_nx t_ny t_sumg t_tnr t_x t_y].
  assert (K : forall z, Z.abs z <= 9999 -> exact_int z) by (intros z Hz; unfold exact_int; assert (9999 < 2 ^ 53) by reflexivity; lia).
  repeat (split; [apply K; lia|]). split; right; right; [apply (dec_fin false 12345 2)|apply (dec_fin true 75 1)]; lia.
Qed.

(** ===== C29: path files ===== *)
Theorem C29_round_trip : forall can_write fs cor path cb lb pb n,
  bases_ok can_write cb lb pb n -> length path = length cor -> Forall path_ok path -> Forall corres_ok cor ->
  let '(fs', r) := write_path_frame can_write fs cor path (Z.of_nat (length path)) cb lb (Some pb) n in
  r = Ok true /\ (forall m, m <> frame_name cb n -> m <> frame_name lb n -> m <> frame_name pb n -> fs' m = fs m) /\
  exists cor' path', read_path_frame fs' cb lb (Some pb) n = Ok (map Some cor', path') /\ same_corres cor cor' /\ Forall2 (same_path 3) path path' /\
    let '(fs'', r'') := write_path_frame can_write fs' cor' path' (Z.of_nat (length path')) cb lb (Some pb) n in r'' = Ok true /\ forall m, fs'' m = fs' m.
Proof. exact path_round_trip. Qed.
(** read without linkage and priority files: no links, priority 4 *)
Theorem C29_read_fresh : forall can_write fs cor path cb lb pb n,
  bases_ok can_write cb lb pb n -> length path = length cor -> Forall path_ok path -> Forall corres_ok cor ->
  let '(fs', r) := write_path_frame can_write fs cor path (Z.of_nat (length path)) cb lb (Some pb) n in
  exists cor' path', read_path_frame fs' cb [] (Some []) n = Ok (map Some cor', path') /\ same_corres cor cor' /\
    Forall2 (fun p q => Forall2 (to_digits 3) (pr_x p) (pr_x q) /\ pr_prev q = PREV_NONE /\ pr_next q = NEXT_NONE /\ pr_prio q = 4 /\ pr_inlist q = 0) path path'.
Proof. exact path_read_fresh. Qed.
(** without a priority file name the writer fails after it has emptied the other two files *)
Theorem C29_no_prio_refuted : forall can_write fs cor path num cb lb n, can_write (frame_name cb n) = true -> can_write (frame_name lb n) = true ->
  exists fs', write_path_frame can_write fs cor path num cb lb (Some []) n = (fs', Exn TypeError) /\
    fs' (frame_name cb n) = Some (line (print_int num)) /\ fs' (frame_name lb n) = Some (line (print_int num)).
Proof.
  intros can_write fs cor path num cb lb n W1 W2. unfold write_path_frame. rewrite W1, W2. cbn [negb]. eexists. split; [reflexivity|]. split; [|apply put_eq].
  unfold put. destruct (teqb _ (frame_name lb n)); [reflexivity|]. now rewrite teqb_refl.
Qed.
(** the name None of the priority file: the writer writes no such file and succeeds, the reader looks for a file
    called "None" with the frame number and, finding none, returns a frame without particles *)
Theorem C29_none_refuted : forall can_write fs cor path cb lb n,
  length path = length cor -> Forall path_ok path -> Forall corres_ok cor -> cb <> lb -> lb <> [] -> cb <> txt "None" -> lb <> txt "None" ->
  can_write (frame_name cb n) = true -> can_write (frame_name lb n) = true -> fs (frame_name (txt "None") n) = None ->
  let '(fs', r) := write_path_frame can_write fs cor path (Z.of_nat (length path)) cb lb None n in
  r = Ok true /\ read_path_frame fs' cb lb None n = Ok ([], []).
Proof.
  intros can_write fs cor path cb lb n L HP HC D LN CN LN2 W1 W2 F. pose proof (write_path_spec can_write fs cor path cb lb (@None text) n L HP HC D W1 W2 I) as W.
  destruct (write_path_frame can_write fs cor path (Z.of_nat (length path)) cb lb None n) as [fs' r]. destruct W as (-> & C1 & C2 & _ & O). split; [reflexivity|].
  unfold read_path_frame. rewrite C1. unfold ctext. rewrite lines_file by (constructor; [apply pi_noline|apply crows_noline]). cbn [readline].
  rewrite parse_print_int. cbn [bind]. destruct (Z.ltb_spec (Z.of_nat (length path)) 0) as [|_]; [lia|]. destruct lb as [|c lb]; [contradiction|]. rewrite C2. cbn [option_map]. unfold opt_name.
  rewrite O; [rewrite F; reflexivity|intros E; apply frame_name_inj in E; congruence|intros E; apply frame_name_inj in E; congruence|intros p [=]].
Qed.
(** A correspondence file cut short after k of its rows (by a full disk or a crash) is read without an error:
    for every missing row there is a particle at the origin, with no links, priority 2 and a correspondence that
    was never written. *)
Lemma crows_firstn l i k : firstn k (crows i l) = crows i (firstn k l).
Proof. revert i k. induction l as [|[p c] l IH]; intros i [|k]; try reflexivity. cbn [crows firstn]. now rewrite IH. Qed.
Theorem C29_truncated_refuted : forall can_write fs cor path cb lb pb n k,
  bases_ok can_write cb lb pb n -> length path = length cor -> Forall path_ok path -> Forall corres_ok cor -> (k <= length path)%nat ->
  let '(fs', r) := write_path_frame can_write fs cor path (Z.of_nat (length path)) cb lb (Some pb) n in
  r = Ok true /\ exists content, fs' (frame_name cb n) = Some content /\
  let cut := put fs' (frame_name cb n) (flat_map line (firstn (S k) (lines content))) in
  exists cor' path' rest, read_path_frame cut cb lb (Some pb) n = Ok (map Some cor' ++ repeat None (length path - k), path' ++ rest) /\
    same_corres (firstn k cor) cor' /\ Forall2 (same_path 3) (firstn k path) path' /\
    length rest = (length path - k)%nat /\ Forall (fun p => pr_x p = [fzero; fzero; fzero] /\ pr_prev p = -1 /\ pr_next p = -2 /\ pr_prio p = 2 /\ pr_inlist p = 0) rest.
Proof.
  intros can_write fs cor path cb lb pb n k (LN & PN & D & PC & PL & W1 & W2 & W3) L HP HC K.
  assert (WP : pb <> [] /\ pb <> cb /\ pb <> lb /\ can_write (frame_name pb n) = true) by auto.
  pose proof (write_path_spec can_write fs cor path cb lb (Some pb) n L HP HC D W1 W2 WP) as W.
  destruct (write_path_frame can_write fs cor path (Z.of_nat (length path)) cb lb (Some pb) n) as [fs' r]. destruct W as (-> & C1 & C2 & C3 & _). split; [reflexivity|]. specialize (C3 pb eq_refl).
  exists (ctext cor path). split; [exact C1|]. cbv zeta. set (m := (length path - k)%nat).
  assert (HP' : Forall path_ok (firstn k path)) by (rewrite <- (firstn_skipn k path) in HP; now apply Forall_app in HP).
  exists (back_corr 0 (firstn k cor)), (map (back_path true true) (firstn k path)), (repeat new_path m).
  unfold read_path_frame. rewrite put_eq.
  assert (X0 : lines (ctext cor path) = print_int (Z.of_nat (length path)) :: crows 0 (combine path cor)) by (apply lines_file; constructor; [apply pi_noline|apply crows_noline]).
  rewrite X0. cbn [firstn]. rewrite crows_firstn.
  fold (file_of (print_int (Z.of_nat (length path)) :: crows 0 (firstn k (combine path cor)))). rewrite lines_file by (constructor; [apply pi_noline|apply crows_noline]). cbn [readline]. rewrite parse_print_int. cbn [bind].
  destruct (Z.ltb_spec (Z.of_nat (length path)) 0) as [|_]; [lia|]. rewrite Nat2Z.id.
  assert (N1 : frame_name lb n <> frame_name cb n) by (intros E; apply frame_name_inj in E; congruence). assert (N2 : frame_name pb n <> frame_name cb n) by (intros E; apply frame_name_inj in E; congruence).
  destruct lb as [|c0 lb]; [contradiction|]. destruct pb as [|c1 pb]; [contradiction|]. unfold opt_name. rewrite !put_neq by assumption. rewrite C2, C3. cbn [option_map].
  assert (X1 : lines (ltext path) = print_int (Z.of_nat (length path)) :: map ltxt path) by (apply lines_file; constructor; [apply pi_noline|apply map_noline, ltxt_noline]).
  assert (X2 : lines (ptext path) = print_int (Z.of_nat (length path)) :: map ptxt path) by (apply lines_file; constructor; [apply pi_noline|apply map_noline, ptxt_noline]).
  rewrite X1, X2. cbn [readline snd].
  pose proof (combine_ok path cor L HP HC) as CO. rewrite <- (firstn_skipn k (combine path cor)) in CO. apply Forall_app in CO. destruct CO as (CO & _).
  pose proof (read_rows_more true true (map ltxt (skipn k path)) (map ptxt (skipn k path)) m (firstn k (combine path cor)) 0 (length path) CO) as H.
  assert (LK : length (firstn k (combine path cor)) = k) by (rewrite firstn_length, combine_length; lia). rewrite LK in H. specialize (H ltac:(unfold m; lia)).
  assert (E1 : map fst (firstn k (combine path cor)) = firstn k path) by (rewrite <- firstn_map, combine_fst by assumption; reflexivity).
  assert (E2 : map snd (firstn k (combine path cor)) = firstn k cor) by (rewrite <- firstn_map, combine_snd by assumption; reflexivity).
  rewrite <- (map_map fst ltxt), <- (map_map fst ptxt), E1, E2, <- !map_app, firstn_skipn in H. split; [exact H|].
  split; [split; [apply back_corr_same|intros i d Hd; apply back_corr_nr in Hd; lia]|].
  split. { clear - HP'. induction HP' as [|p l P HP' IH]; cbn [map]; constructor; [now apply back_path_same|exact IH]. }
  split; [apply repeat_length|]. apply Forall_forall. intros p I. apply repeat_spec in I. subst p. repeat split.
Qed.
(** a file that cannot be opened: False is returned and nothing but the first line of the files
    opened before it is written; those files have lost their former content *)
Theorem C29_unwritable : forall can_write fs cor path num cb lb pb n, pb <> [] ->
  frame_name cb n <> frame_name lb n ->
  (can_write (frame_name cb n) = false -> write_path_frame can_write fs cor path num cb lb (Some pb) n = (fs, Ok false)) /\
  (can_write (frame_name cb n) = true -> can_write (frame_name lb n) = false ->
     exists fs', write_path_frame can_write fs cor path num cb lb (Some pb) n = (fs', Ok false) /\
       fs' (frame_name cb n) = Some (line (print_int num)) /\ forall m, m <> frame_name cb n -> fs' m = fs m) /\
  (can_write (frame_name cb n) = true -> can_write (frame_name lb n) = true -> can_write (frame_name pb n) = false ->
     exists fs', write_path_frame can_write fs cor path num cb lb (Some pb) n = (fs', Ok false) /\
       fs' (frame_name cb n) = Some (line (print_int num)) /\ fs' (frame_name lb n) = Some (line (print_int num)) /\
       forall m, m <> frame_name cb n -> m <> frame_name lb n -> fs' m = fs m).
Proof.
  intros can_write fs cor path num cb lb pb n P D. unfold write_path_frame, opt_name. split; [|split].
  - intros ->. reflexivity.
  - intros -> ->. eexists. split; [reflexivity|]. split; [apply put_eq|]. intros m H. now rewrite put_neq by congruence.
  - intros -> -> W. destruct pb as [|b0 pb]; [contradiction|]. cbn [negb andb]. rewrite W. cbn [negb]. eexists. split; [reflexivity|].
    split; [rewrite put_neq by congruence; apply put_eq|]. split; [apply put_eq|]. intros m H1 H2. now rewrite !put_neq by congruence.
Qed.
(** ---- one frame's files are not another's ---- *)
Lemma print_int_nodot z : ~ In "."%char (print_int z).
Proof.
  intros I. unfold print_int in I.
  assert (K : forall n, 0 <= n -> ~ In "."%char (print_nat n)).
  { intros n H J. destruct (print_nat_digits n H) as (ds & E & D & _). rewrite E in J. apply in_map_iff in J as (d & Ed & Hd). rewrite Forall_forall in D.
    destruct (digit_not_minus d (D d Hd)) as (_ & _ & Q). rewrite Ed in Q. discriminate. }
  destruct (Z.ltb_spec z 0); [|now apply (K z)]. destruct I as [I|I]; [discriminate|]. apply (K (- z)); [lia|exact I].
Qed.
Lemma last_dot (a b s t : text) : ~ In "."%char s -> ~ In "."%char t -> a ++ "."%char :: s = b ++ "."%char :: t -> a = b /\ s = t.
Proof.
  revert b. induction a as [|x a IH]; intros [|y b] S T E; cbn [app] in E.
  - injection E as E. auto.
  - injection E as _ E. exfalso. apply S. rewrite E. apply in_or_app. right. now left.
  - injection E as _ E. exfalso. apply T. rewrite <- E. apply in_or_app. right. now left.
  - injection E as -> E. destruct (IH b S T E) as (-> & ->). auto.
Qed.
Theorem C29_names : forall a b n m, frame_name a n = frame_name b m <-> a = b /\ n = m.
Proof.
  intros a b n m. split; [|intros (-> & ->); reflexivity]. intros E. apply last_dot in E; try apply print_int_nodot. destruct E as (-> & E). split; [reflexivity|]. now apply print_int_inj.
Qed.
(** writing a frame, whether it succeeds or not, leaves the files of all other frames as they were, under all base names *)
Theorem C29_other_frames : forall can_write fs cor path num cb lb pb n m, n <> m ->
  let fs' := fst (write_path_frame can_write fs cor path num cb lb pb n) in
  (forall b, fs' (frame_name b m) = fs (frame_name b m)) /\
  forall cb' lb' pb', read_path_frame fs' cb' lb' pb' m = read_path_frame fs cb' lb' pb' m.
Proof.
  intros can_write fs cor path num cb lb pb n m D fs'.
  assert (K : forall b, fs' (frame_name b m) = fs (frame_name b m)).
  { intros b. assert (N : forall a, frame_name b m <> frame_name a n) by (intros a E; apply C29_names in E; destruct E; congruence).
    unfold fs', write_path_frame, opt_name. destruct (negb (can_write (frame_name cb n))); [reflexivity|]. destruct (negb (can_write (frame_name lb n))); [cbn [fst]; now rewrite put_neq|].
    assert (R : forall wp h (p : text), fst (if wp && negb (can_write (frame_name p n)) then (put (put fs (frame_name cb n) h) (frame_name lb n) h, Ok false) else
       let '((lt, ct, pt), e) := write_rows (zrange 0 num) cor path wp (h, h, h) in
       let fs3 := put (put (put (put fs (frame_name cb n) h) (frame_name lb n) h) (frame_name cb n) ct) (frame_name lb n) lt in
       (if wp then put fs3 (frame_name p n) pt else fs3, match e with Some e => Exn e | None => Ok true end)) (frame_name b m) = fs (frame_name b m)).
    { intros wp h p. destruct (wp && _); [cbn [fst]; now rewrite !put_neq|]. destruct (write_rows _ _ _ _ _) as [[[lt ct] pt] e]. cbn [fst]. destruct wp; now rewrite !put_neq. }
    destruct pb as [[|c pb]|]; [cbn [fst]; now rewrite !put_neq|exact (R true _ (c :: pb))|exact (R false _ [])]. }
  split; [exact K|]. intros cb' lb' pb'. unfold read_path_frame, opt_name. rewrite K. destruct (fs (frame_name cb' m)) as [content|]; [|reflexivity]. rewrite !K. reflexivity.
Qed.
Example C29_names_case : frame_name (txt "res/rt_is") 10001 = txt "res/rt_is.10001" /\ frame_name (txt "res/rt_is") 12 <> frame_name (txt "res/rt_is1") 2.
Proof. split; [reflexivity|]. intros E. apply C29_names in E. destruct E as (_ & E). discriminate. Qed.
(** Malformed rows are accepted: a correspondence row with a single number is a particle without coordinates that is seen by all
    four cameras, and a link beyond 63 bits becomes the most negative number. *)
Theorem C29_malformed_refuted :
  let fs := put (put (put (fun _ => None) (txt "rt.1") (file_of [txt "1"; txt "7"])) (txt "ptv.1") (file_of [txt "1"; txt "9223372036854775808 3 0 0 0"])) (txt "add.1") (file_of [txt "1"; txt "2"]) in
  match read_path_frame fs (txt "rt") (txt "ptv") (Some (txt "add")) 1 with
  | Ok ([Some c], [p]) => co_p c = [7; 7; 7; 7] /\ pr_x p = [] /\ pr_prev p = - 2 ^ 63 /\ pr_next p = 3 /\ pr_prio p = 2
  | _ => False end.
Proof. vm_compute. auto 9. Qed.
Definition sample_path : path_rec := mk_path [f_of_dec false 12345 4; f_of_dec true 5 1; fzero] 4 (-2) 2 [] fzero [] 0.
Definition sample_corres : corres := mk_corres 1 [5; -1; 7; 8].
Example C29_example : bases_ok (fun _ => true) (txt "res/rt_is") (txt "res/ptv_is") (txt "res/added") 5 /\ path_ok sample_path /\ corres_ok sample_corres.
Proof.
  assert (K : forall z, Z.abs z <= 9999 -> exact_int z) by (intros z Hz; unfold exact_int; assert (9999 < 2 ^ 53) by reflexivity; lia).
  split; [repeat split; discriminate|]. split.
  - split; [reflexivity|]. split; [|cbn; repeat split; apply K; lia]. apply Forall_cons; [right; right; apply (dec_fin false 12345 4); lia|]. apply Forall_cons; [right; right; apply (dec_fin true 5 1); lia|]. apply Forall_cons; [right; right; split; reflexivity|apply Forall_nil].
  - split; [reflexivity|]. repeat constructor; unfold int32; assert (100 < 2 ^ 31) by reflexivity; lia.
Qed.

(** ===== C30: missing files =====
    Refuted: the flag is never False; a missing correspondence, linkage or priority file looks like a frame without particles. *)
Theorem C30_refuted : forall fs cb lb pb bases n ts, read_all_targets fs bases n = Ok ts ->
  fs (frame_name cb n) = None ->
  frame_read fs cb lb pb bases n = Ok (mk_io_frame [] [] ts (map (fun t => Z.of_nat (length t)) ts) 0, true).
Proof. intros fs cb lb pb bases n ts T F. rewrite frame_read_eq. unfold read_path_frame. rewrite F. cbn [bind]. rewrite T. reflexivity. Qed.
Theorem C30_linkage_refuted : forall fs cb lb pb bases n ts cor path, length path = length cor -> fs (frame_name cb n) = Some (ctext cor path) -> lb <> [] -> fs (frame_name lb n) = None ->
  read_all_targets fs bases n = Ok ts ->
  frame_read fs cb lb pb bases n = Ok (mk_io_frame [] [] ts (map (fun t => Z.of_nat (length t)) ts) 0, true).
Proof.
  intros fs cb lb pb bases n ts cor path L F N G T. rewrite frame_read_eq. unfold read_path_frame. rewrite F. unfold ctext. rewrite lines_file by (constructor; [apply pi_noline|apply crows_noline]).
  cbn [readline]. rewrite parse_print_int. cbn [bind]. destruct (Z.ltb_spec (Z.of_nat (length path)) 0); [lia|]. destruct lb as [|c lb]; [contradiction|]. rewrite G. cbn [option_map bind]. rewrite T. reflexivity.
Qed.
Theorem C30_never_false : forall fs cb lb pb bases n f b, frame_read fs cb lb pb bases n = Ok (f, b) -> b = true.
Proof.
  intros fs cb lb pb bases n f b. rewrite frame_read_eq. destruct (read_path_frame fs cb lb pb n) as [[c p]|]; [|discriminate]. cbn [bind].
  destruct (read_all_targets fs bases n); [|discriminate]. cbn [bind]. congruence.
Qed.
(** only a missing target file is reported, by an exception *)
Theorem C30_targets : forall fs base n name, read_name base n = Ok name -> fs name = None -> read_targets fs base n = Exn IOError.
Proof. intros fs base n name R F. unfold read_targets. rewrite R. cbn [bind]. now rewrite F. Qed.

(** ===== C57: whole frames ===== *)
Theorem C57_frame_round_trip : forall can_write fs cor path cams names cb lb pb n,
  0 < n -> bases_ok can_write cb lb pb n -> length path = length cor -> Forall path_ok path -> Forall corres_ok cor ->
  Forall2 (cam_ok can_write n) cams names -> NoDup (frame_name cb n :: frame_name lb n :: frame_name pb n :: names) ->
  let '(fs', r) := frame_write can_write fs cor path (Z.of_nat (length path)) (map cam_args cams) cb lb (Some pb) n in
  r = Ok true /\ exists f, frame_read fs' cb lb (Some pb) (map snd cams) n = Ok (f, true) /\
    if_num f = Z.of_nat (length path) /\ (exists cor', if_corr f = map Some cor' /\ same_corres cor cor') /\ Forall2 (same_path 3) path (if_path f) /\
    Forall2 (Forall2 (same_target 4)) (map fst cams) (if_targ f) /\ if_numt f = map (fun c => Z.of_nat (length (fst c))) cams.
Proof. exact frame_round_trip. Qed.
(** one camera without targets is enough to make writing the frame fail: the cameras before it are written, its own file is emptied,
    those after it are not touched *)
Theorem C57_empty_camera_refuted : forall can_write fs cor path cams names rest cb lb pb n base name,
  0 < n -> bases_ok can_write cb lb pb n -> length path = length cor -> Forall path_ok path -> Forall corres_ok cor ->
  Forall2 (cam_ok can_write n) cams names -> NoDup names -> write_name base n = Ok name -> can_write name = true ->
  let '(fs', r) := frame_write can_write fs cor path (Z.of_nat (length path)) (map cam_args cams ++ ([], 0, base) :: rest) cb lb (Some pb) n in
  r = Exn ValueError /\ fs' name = Some [] /\
  forall m, m <> frame_name cb n -> m <> frame_name lb n -> m <> frame_name pb n -> ~ In m names -> m <> name -> fs' m = fs m.
Proof.
  intros can_write fs cor path cams names rest cb lb pb n base name N (B1 & B2 & B3 & B4 & B5 & W1 & W2 & W3) L HP HC CA ND WN C.
  pose proof (write_path_spec can_write fs cor path cb lb (Some pb) n L HP HC B3 W1 W2 (conj B2 (conj B4 (conj B5 W3)))) as H.
  unfold frame_write. destruct (write_path_frame can_write fs cor path _ cb lb (Some pb) n) as [fs1 r]. destruct H as (-> & _ & _ & _ & O).
  destruct (write_all_spec can_write n cams names N CA ND fs1) as (fs' & W & O' & T).
  assert (A : forall l l' f f', write_all_targets can_write f l n = (f', Ok true) -> write_all_targets can_write f (l ++ l') n = write_all_targets can_write f' l' n).
  { clear. induction l as [|[[ts num] b] l IH]; intros l' f f' E; cbn [app write_all_targets] in *; [injection E as ->; reflexivity|].
    destruct (write_targets can_write f ts num b n) as [f1 [[|]|e]]; try discriminate. now apply IH. }
  rewrite (A _ _ _ _ W). cbn [write_all_targets]. unfold write_targets. rewrite WN, C. split; [reflexivity|]. split; [apply put_eq|].
  intros m M1 M2 M3 M4 M5. rewrite put_neq by exact M5. rewrite O' by exact M4. apply O; [exact M1|exact M2|]. intros p [= <-]. exact M3.
Qed.
(** whatever the outcome, only the files of this frame are touched *)
Theorem C57_other_files : forall can_write fs cor path num cams cb lb pb n m,
  m <> frame_name cb n -> m <> frame_name lb n -> (forall b, pb = Some b -> m <> frame_name b n) ->
  (forall ts k b name, In (ts, k, b) cams -> write_name b n = Ok name -> m <> name) ->
  fst (frame_write can_write fs cor path num cams cb lb pb n) m = fs m.
Proof.
  intros can_write fs cor path num cams cb lb pb n m M1 M2 M3 M4.
  assert (K : fst (write_path_frame can_write fs cor path num cb lb pb n) m = fs m).
  { unfold write_path_frame, opt_name. destruct (negb (can_write (frame_name cb n))); [reflexivity|]. destruct (negb (can_write (frame_name lb n))); [cbn [fst]; now rewrite put_neq|].
    assert (R : forall wp h (p : text), (wp = true -> m <> frame_name p n) -> fst (if wp && negb (can_write (frame_name p n)) then (put (put fs (frame_name cb n) h) (frame_name lb n) h, Ok false) else
       let '((lt, ct, pt), e) := write_rows (zrange 0 num) cor path wp (h, h, h) in
       let fs3 := put (put (put (put fs (frame_name cb n) h) (frame_name lb n) h) (frame_name cb n) ct) (frame_name lb n) lt in
       (if wp then put fs3 (frame_name p n) pt else fs3, match e with Some e => Exn e | None => Ok true end)) m = fs m).
    { intros wp h p P. destruct (wp && _); [cbn [fst]; now rewrite !put_neq|]. destruct (write_rows _ _ _ _ _) as [[[lt ct] pt] e]. cbn [fst]. destruct wp; [rewrite put_neq by auto|]; now rewrite !put_neq. }
    destruct pb as [[|c pb]|]; [cbn [fst]; now rewrite !put_neq|apply (R true _ (c :: pb)); intros _; now apply M3|apply (R false _ []); discriminate]. }
  unfold frame_write. destruct (write_path_frame can_write fs cor path num cb lb pb n) as [fs1 [[|]|e]]; cbn [fst] in *; try exact K. rewrite <- K. clear K M1 M2 M3.
  revert fs1. induction cams as [|[[ts k] b] cams IH]; intros f; cbn [write_all_targets]; [reflexivity|].
  assert (Q : fst (write_targets can_write f ts k b n) m = f m).
  { unfold write_targets. destruct (write_name b n) as [name|e] eqn:E; [|reflexivity]. pose proof (M4 ts k b name (or_introl eq_refl) E). destruct (can_write name); [|reflexivity]. destruct ts; cbn [fst]; now rewrite put_neq. }
  destruct (write_targets can_write f ts k b n) as [f1 [[|]|e]]; cbn [fst] in Q |- *; try exact Q. rewrite <- Q. apply IH. intros ts' k' b' name I. apply (M4 ts' k' b' name). now right.
Qed.
Print Assumptions C57_other_files.
Example C57_example : Forall2 (cam_ok (fun _ => true) 7) [([plain_target], txt "cam.%05d")] [txt "cam.00007_targets"] /\
  NoDup (frame_name (txt "res/rt_is") 7 :: frame_name (txt "res/ptv_is") 7 :: frame_name (txt "res/added") 7 :: [txt "cam.00007_targets"]).
Proof.
  destruct C28_example as (T & R & _). split.
  - constructor; [|constructor]. split; [discriminate|]. split; [apply Forall_cons; [exact T|apply Forall_nil]|]. split; [|split; [|split; [exact R|reflexivity]]].
    + intros I. apply has_In in I. vm_compute in I. discriminate.
    + apply has_In. reflexivity.
  - repeat constructor; intros I; repeat (destruct I as [I|I]; [vm_compute in I; discriminate|]); contradiction.
Qed.

(** ===== C58: exported positions ===== *)
(** one row per particle of the frame, in their order: its three coordinates *)
Theorem C58_positions : forall path more, positions (path ++ more) (Z.of_nat (length path)) = Ok (map pr_x path).
Proof. exact positions_ok. Qed.
Theorem C58_target_positions : forall cor ts cam rows num,
  Forall2 (fun c r => exists tix, pyget (co_p c) cam = Ok tix /\
     ((tix = CORRES_NONE /\ r = (fnan, fnan)) \/ (0 <= tix /\ exists t, nth_error ts (Z.to_nat tix) = Some t /\ r = (t_x t, t_y t)))) cor rows ->
  num = Z.of_nat (length cor) -> target_positions cor ts cam num = Ok rows.
Proof. exact target_positions_ok. Qed.
Example C58_example : exists rows, Forall2 (fun c r => exists tix, pyget (co_p c) 1 = Ok tix /\
     ((tix = CORRES_NONE /\ r = (fnan, fnan)) \/ (0 <= tix /\ exists t, nth_error [plain_target] (Z.to_nat tix) = Some t /\ r = (t_x t, t_y t))))
  [sample_corres; mk_corres 2 [1; 0; 2; 3]] rows.
Proof.
  exists [(fnan, fnan); (t_x plain_target, t_y plain_target)]. constructor; [exists (-1); split; [reflexivity|left; split; reflexivity]|].
  constructor; [|constructor]. exists 0. split; [reflexivity|]. right. split; [lia|]. exists plain_target. split; reflexivity.
Qed.
Print Assumptions C28_round_trip.
Print Assumptions C28_empty_refuted.
Print Assumptions C28_names_refuted.
Print Assumptions C28_other_names.
Print Assumptions C28_big_integer_refuted.
Print Assumptions C29_round_trip.
Print Assumptions C29_read_fresh.
Print Assumptions C29_no_prio_refuted.
Print Assumptions C29_none_refuted.
Print Assumptions C29_truncated_refuted.
Print Assumptions C29_unwritable.
Print Assumptions C30_refuted.
Print Assumptions C30_linkage_refuted.
Print Assumptions C30_never_false.
Print Assumptions C30_targets.
Print Assumptions C57_frame_round_trip.
Print Assumptions C57_empty_camera_refuted.
Print Assumptions C58_positions.
Print Assumptions C58_target_positions.
Print Assumptions C29_names.
Print Assumptions C29_other_frames.
Print Assumptions C29_malformed_refuted.
