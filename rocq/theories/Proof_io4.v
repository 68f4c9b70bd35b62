(** Whole frames; what is reported when files are missing; exported positions. *)
From Coq Require Import Reals Psatz.
From Verif Require Import F64 F64R Model_text Proof_text Proof_text2 Model_corr Model_track Model_io Spec_io Proof_io Proof_io2 Proof_io3 Lib Base.
Local Open Scope Z_scope.

Lemma read_targets_text fs base n name ts : read_name base n = Ok name -> fs name = Some (targets_text ts (Z.of_nat (length ts))) -> Forall target_ok ts ->
  read_targets fs base n = Ok (map back_target ts).
Proof.
  intros R F T. unfold read_targets. rewrite R. cbn [bind]. rewrite F, targets_lines. cbn [readline].
  rewrite strip_nospace by apply print_int_word. rewrite parse_print_int. cbn [bind]. rewrite <- (app_nil_r (map _ ts)). rewrite rows_of by (assumption || lia).
  now rewrite Nat2Z.id, firstn_all.
Qed.

Definition cam_ok (can_write : text -> bool) (n : Z) (c : list target * text) (name : text) : Prop :=
  fst c <> [] /\ Forall target_ok (fst c) /\ ~ In "#"%char (snd c) /\ In "%"%char (snd c) /\ read_name (snd c) n = Ok name /\ can_write name = true.
Definition cam_args (c : list target * text) : list target * Z * text := (fst c, Z.of_nat (length (fst c)), snd c).

Lemma write_all_spec can_write n cams names : 0 < n -> Forall2 (cam_ok can_write n) cams names -> NoDup names ->
  forall fs, exists fs', write_all_targets can_write fs (map cam_args cams) n = (fs', Ok true) /\ (forall m, ~ In m names -> fs' m = fs m) /\
    Forall2 (fun c name => fs' name = Some (targets_text (fst c) (Z.of_nat (length (fst c))))) cams names.
Proof.
  intros N H. induction H as [|[ts b] name cams names C H IH]; intros ND fs.
  - exists fs. repeat split; constructor.
  - destruct C as (C1 & C2 & C3 & C4 & C5 & C6). cbn [fst snd] in *. inversion ND as [|? ? NI ND']; subst. cbn [map cam_args fst snd write_all_targets].
    unfold write_targets. rewrite write_name_plain, C5, C6 by assumption. destruct ts as [|t ts]; [contradiction|]. set (T := t :: ts) in *.
    destruct (IH ND' (put fs name (targets_text T (Z.of_nat (length T))))) as (fs' & W & O & R). exists fs'. split; [exact W|]. split.
    + intros m M. rewrite O by (intros I; apply M; now right). apply put_neq. intros ->. apply M. now left.
    + constructor; [cbn [fst]; rewrite O by assumption; apply put_eq|exact R].
Qed.
Lemma read_all_spec can_write n cams names fs : Forall2 (cam_ok can_write n) cams names ->
  Forall2 (fun c name => fs name = Some (targets_text (fst c) (Z.of_nat (length (fst c))))) cams names ->
  read_all_targets fs (map snd cams) n = Ok (map (fun c => map back_target (fst c)) cams).
Proof.
  intros H. induction H as [|[ts b] name cams names C H IH]; intros R; [reflexivity|]. inversion R; subst. destruct C as (C1 & C2 & C3 & C4 & C5 & C6). cbn [fst snd map] in *.
  cbn [read_all_targets]. erewrite read_targets_text by eassumption. cbn [bind]. rewrite IH by assumption. reflexivity.
Qed.
Lemma existsb_len (l : list (list target)) : existsb (fun t => Z.of_nat (length t) =? -1) l = false.
Proof. induction l as [|a l IH]; [reflexivity|]. cbn [existsb]. rewrite IH. destruct (Z.eqb_spec (Z.of_nat (length a)) (-1)); [lia|reflexivity]. Qed.
Lemma frame_read_eq fs cb lb pb bases n : frame_read fs cb lb pb bases n =
  (do (cor, path) <- read_path_frame fs cb lb pb n; do ts <- read_all_targets fs bases n;
   Ok (mk_io_frame cor path ts (map (fun t => Z.of_nat (length t)) ts) (Z.of_nat (length cor)), true)).
Proof.
  unfold frame_read. destruct (read_path_frame fs cb lb pb n) as [[cor path]|e]; [|reflexivity]. cbn [bind]. destruct (Z.eqb_spec (Z.of_nat (length cor)) (-1)); [lia|].
  destruct (read_all_targets fs bases n) as [ts|e]; [|reflexivity]. cbn [bind]. now rewrite existsb_len.
Qed.

Theorem frame_round_trip can_write fs cor path cams names cb lb pb n :
  0 < n -> bases_ok can_write cb lb pb n -> length path = length cor -> Forall path_ok path -> Forall corres_ok cor ->
  Forall2 (cam_ok can_write n) cams names -> NoDup (frame_name cb n :: frame_name lb n :: frame_name pb n :: names) ->
  let '(fs', r) := frame_write can_write fs cor path (Z.of_nat (length path)) (map cam_args cams) cb lb (Some pb) n in
  r = Ok true /\ exists f, frame_read fs' cb lb (Some pb) (map snd cams) n = Ok (f, true) /\
    if_num f = Z.of_nat (length path) /\ (exists cor', if_corr f = map Some cor' /\ same_corres cor cor') /\ Forall2 (same_path 3) path (if_path f) /\
    Forall2 (Forall2 (same_target 4)) (map fst cams) (if_targ f) /\ if_numt f = map (fun c => Z.of_nat (length (fst c))) cams.
Proof.
  intros N BO L HP HC CA ND. pose proof BO as (B1 & B2 & B3 & B4 & B5 & W1 & W2 & W3).
  pose proof (write_path_spec can_write fs cor path cb lb (Some pb) n L HP HC B3 W1 W2 (conj B2 (conj B4 (conj B5 W3)))) as H.
  unfold frame_write. destruct (write_path_frame can_write fs cor path _ cb lb (Some pb) n) as [fs1 r]. destruct H as (R & C & LT & PT & O). subst r.
  inversion ND as [|? ? D1 ND1]; inversion ND1 as [|? ? D2 ND2]; inversion ND2 as [|? ? D3 ND3]; subst.
  destruct (write_all_spec can_write n cams names N CA ND3 fs1) as (fs' & W & O' & T). rewrite W. split; [reflexivity|].
  rewrite frame_read_eq.
  assert (P1 : read_path_frame fs' cb lb (Some pb) n = Ok (map Some (back_corr 0 cor), map (back_path true true) path)).
  { apply (read_path_spec fs' cor path cb lb pb n true true L HP HC).
    - rewrite O'; [assumption|]. intros I. apply D1. now do 2 right.
    - intros _. split; [assumption|]. rewrite O'; [assumption|]. intros I. apply D2. now right.
    - intros _. split; [assumption|]. rewrite O'; [now apply PT|]. exact D3. }
  rewrite P1. cbn [bind]. rewrite (read_all_spec can_write n cams names fs' CA T). cbn [bind]. eexists. split; [reflexivity|]. cbn [if_num if_corr if_path if_targ if_numt].
  split; [now rewrite map_length, back_corr_length, L|]. split.
  { exists (back_corr 0 cor). split; [reflexivity|]. split; [apply back_corr_same|]. intros i d I. apply back_corr_nr in I. lia. }
  split. { clear - HP. induction HP as [|p path P HP IH]; cbn; constructor; [|exact IH]. now apply back_path_same. }
  split. { clear - CA. induction CA as [|[ts b] name cams names C CA IH]; cbn [map fst]; constructor; [|exact IH]. destruct C as (_ & T & _). cbn [fst] in T. clear - T.
    induction T as [|t ts H T IH]; cbn [map]; constructor; [now apply back_same|exact IH]. }
  rewrite map_map. apply map_ext. intros c. now rewrite map_length.
Qed.

Lemma F2_length {A B} (P : A -> B -> Prop) l m : Forall2 P l m -> length l = length m.
Proof. intros H. induction H; cbn; congruence. Qed.
(** exported positions: particle order, NaN exactly for missing targets *)
Lemma target_positions_ok cor ts cam rows num :
  Forall2 (fun c r => exists tix, pyget (co_p c) cam = Ok tix /\
     ((tix = CORRES_NONE /\ r = (fnan, fnan)) \/ (0 <= tix /\ exists t, nth_error ts (Z.to_nat tix) = Some t /\ r = (t_x t, t_y t)))) cor rows ->
  num = Z.of_nat (length cor) -> target_positions cor ts cam num = Ok rows.
Proof.
  intros H ->. unfold target_positions.
  set (f := fun (acc : list (f64 * f64)) i => do c <- pyget cor i; do tix <- pyget (co_p c) cam; if tix =? CORRES_NONE then Ok (acc ++ [(fnan, fnan)]) else do t <- pyget ts tix; Ok (acc ++ [(t_x t, t_y t)])).
  destruct (loop_total (fun i acc => acc = firstn (Z.to_nat i) rows) f 0 (Z.of_nat (length cor)) []) as (s & E & S).
  - lia.
  - reflexivity.
  - intros i s I ->. assert (LR : length rows = length cor) by (symmetry; eapply F2_length; eassumption).
    destruct (nth_error cor (Z.to_nat i)) as [c|] eqn:EC; [|apply nth_error_None in EC; lia].
    destruct (nth_error rows (Z.to_nat i)) as [r|] eqn:ER; [|apply nth_error_None in ER; lia].
    assert (Q : exists tix, pyget (co_p c) cam = Ok tix /\ ((tix = CORRES_NONE /\ r = (fnan, fnan)) \/ (0 <= tix /\ exists t, nth_error ts (Z.to_nat tix) = Some t /\ r = (t_x t, t_y t)))).
    { clear - H EC ER. revert EC ER. generalize (Z.to_nat i) as k. induction H as [|a b cor rows A H IH]; intros [|k] EC ER; try discriminate; cbn in EC, ER.
      - injection EC as <-. injection ER as <-. exact A.
      - now apply (IH k). }
    destruct Q as (tix & G & Q). unfold f. rewrite (pyget_nonneg cor i c) by (lia || assumption). cbn [bind]. rewrite G. cbn [bind].
    assert (SN : firstn (Z.to_nat (i + 1)) rows = firstn (Z.to_nat i) rows ++ [r]).
    { replace (Z.to_nat (i + 1)) with (S (Z.to_nat i)) by lia. clear - ER. revert rows ER. induction (Z.to_nat i) as [|k IH]; intros [|a rows] ER; try discriminate; cbn in *; [now injection ER as ->|].
      now rewrite (IH rows ER). }
    destruct Q as [(-> & ->)|(T0 & t & ET & ->)].
    + destruct (Z.eqb_spec CORRES_NONE CORRES_NONE); [|contradiction]. eexists. split; [reflexivity|]. symmetry. exact SN.
    + destruct (Z.eqb_spec tix CORRES_NONE) as [->|]; [unfold CORRES_NONE in T0; lia|]. rewrite (pyget_nonneg ts tix t) by assumption. cbn [bind]. eexists. split; [reflexivity|]. symmetry. exact SN.
  - fold f. rewrite E. f_equal. rewrite S, Nat2Z.id. rewrite (F2_length _ _ _ H). apply firstn_all.
Qed.
Lemma positions_ok path more : positions (path ++ more) (Z.of_nat (length path)) = Ok (map pr_x path).
Proof.
  unfold positions.
  destruct (loop_total (fun i acc => acc = map pr_x (firstn (Z.to_nat i) path)) (fun acc i => do p <- pyget (path ++ more) i; Ok (acc ++ [pr_x p])) 0 (Z.of_nat (length path)) []) as (s & E & S).
  - lia.
  - reflexivity.
  - intros i s I ->. destruct (nth_error path (Z.to_nat i)) as [c|] eqn:EC; [|apply nth_error_None in EC; lia].
    rewrite (pyget_nonneg (path ++ more) i c); [|lia|rewrite nth_error_app1 by lia; exact EC]. cbn [bind]. eexists. split; [reflexivity|].
    replace (Z.to_nat (i + 1)) with (S (Z.to_nat i)) by lia. clear - EC. revert path EC.
    induction (Z.to_nat i) as [|k IH]; intros [|a path] EC; try discriminate; cbn in *; [now injection EC as ->|]. now rewrite (IH path EC).
  - rewrite E, S, Nat2Z.id. now rewrite firstn_all.
Qed.
