(** Property C90, continued: a crash anywhere in Frame.write, target files included. *)
From Coq Require Import Reals Psatz.
From Verif Require Import F64 F64R Model_text Proof_text Proof_text2 Model_corr Model_track Model_io Spec_io Proof_io Proof_io2 Proof_io3 Proof_io4 Prop_io Model_crash Spec_crash Proof_crash Prop_crash Lib Base.
Local Open Scope Z_scope.

Lemma target_ops_is can_write n c name : 0 < n -> cam_ok can_write n c name ->
  target_ops (cam_args c) n = [Open name; Write name (targets_text (fst c) (Z.of_nat (length (fst c))))].
Proof. intros N (C1 & C2 & C3 & C4 & C5 & C6). unfold target_ops, cam_args. rewrite write_name_plain, C5 by assumption. reflexivity. Qed.
Lemma run_targets can_write n A NA : 0 < n -> Forall2 (cam_ok can_write n) A NA -> NoDup NA ->
  forall f, (forall m, ~ In m NA -> run_ops (concat (map (fun c => target_ops (cam_args c) n) A)) f m = f m) /\
    Forall2 (fun c name => run_ops (concat (map (fun c => target_ops (cam_args c) n) A)) f name = Some (targets_text (fst c) (Z.of_nat (length (fst c))))) A NA.
Proof.
  intros N H. induction H as [|c name A NA C H IH]; intros ND f; [split; [reflexivity|constructor]|]. inversion ND as [|? ? NI ND']; subst.
  cbn [map concat]. rewrite (target_ops_is _ _ _ _ N C). cbn [app run_ops fold_left do_op]. fold (run_ops (concat (map (fun c => target_ops (cam_args c) n) A))).
  set (T := targets_text (fst c) (Z.of_nat (length (fst c)))). rewrite put_eq. cbn [app]. destruct (IH ND' (put (put f name []) name T)) as (O & R). split.
  - intros m M. rewrite O by (intros I; apply M; now right). rewrite !put_neq by (intros ->; apply M; now left). reflexivity.
  - constructor; [rewrite O by exact NI; apply put_eq|exact R].
Qed.
Lemma crash_one name T f f' : after_crash [Open name; Write name T] f f' ->
  (forall m, m <> name -> f' m = f m) /\ (f' name = f name \/ exists t, f' name = Some t /\ starts t T).
Proof.
  intros (fin & rest & E & H). split.
  - intros m M. apply H. intros O. assert (I : In (Open m) (fin ++ rest)) by (apply in_or_app; now left). rewrite <- E in I. destruct I as [I|[I|[]]]; congruence.
  - destruct (H name) as (H1 & H2). destruct fin as [|o fin]; [left; apply H1; intros []|]. injection E as <- E. right.
    destruct (H2 (or_introl eq_refl)) as (t & F & c & R & S). exists t. split; [exact F|]. destruct fin as [|o fin].
    + cbn [run_ops fold_left do_op] in R. rewrite put_eq in R. injection R as <-. destruct S as (s & S). symmetry in S. apply app_eq_nil in S. destruct S as (-> & _). exists T. reflexivity.
    + injection E as <- E. symmetry in E. apply app_eq_nil in E. destruct E as (-> & _). cbn [run_ops fold_left do_op] in R. rewrite !put_eq in R. cbn [app] in R. injection R as <-. exact S.
Qed.
Lemma path_ops_opens cor path num cb lb pb n m : opened m (fst (path_ops cor path num cb lb pb n)) -> m = frame_name cb n \/ m = frame_name lb n \/ m = frame_name pb n.
Proof.
  intros O. unfold path_ops in O. pose proof (row_ops_noopen (frame_name cb n) (frame_name lb n) (frame_name pb n) cor path (zrange 0 num) m) as NO.
  destruct (row_ops _ _ _ _ _ _) as [ops e]. cbn [fst] in *. apply in_app_or in O. destruct O as [O|O]; [|contradiction].
  cbn [In] in O. repeat (destruct O as [O|O]; [first [discriminate O|injection O as <-; auto]|]). destruct O.
Qed.

(** The whole call, carried out completely, has the effect of frame_write (C29). *)
Theorem C90_frame_operations : forall can_write fs cor path cams names cb lb pb n,
  0 < n -> bases_ok can_write cb lb pb n -> length path = length cor -> Forall path_ok path -> Forall corres_ok cor ->
  Forall2 (cam_ok can_write n) cams names -> NoDup (frame_name cb n :: frame_name lb n :: frame_name pb n :: names) ->
  snd (frame_write can_write fs cor path (Z.of_nat (length path)) (map cam_args cams) cb lb (Some pb) n) = Ok true /\
  forall m, run_ops (concat (frame_phases cor path (Z.of_nat (length path)) (map cam_args cams) cb lb pb n)) fs m =
            fst (frame_write can_write fs cor path (Z.of_nat (length path)) (map cam_args cams) cb lb (Some pb) n) m.
Proof.
  intros can_write fs cor path cams names cb lb pb n N BO L HP HC CA ND. pose proof BO as (B1 & B2 & B3 & B4 & B5 & W1 & W2 & W3).
  pose proof (write_path_spec can_write fs cor path cb lb (Some pb) n L HP HC B3 W1 W2 (conj B2 (conj B4 (conj B5 W3)))) as H.
  pose proof (ops_run can_write fs cor path (Z.of_nat (length path)) cb lb pb n BO) as OR.
  unfold frame_write, frame_phases. destruct (write_path_frame can_write fs cor path _ cb lb (Some pb) n) as [fs1 r]. destruct H as (-> & _).
  destruct (path_ops cor path _ cb lb pb n) as [ops e]. destruct OR as (_ & OR). cbn [fst concat]. rewrite map_map.
  inversion ND as [|? ? _ ND1]; inversion ND1 as [|? ? _ ND2]; inversion ND2 as [|? ? _ ND3]; subst.
  destruct (write_all_spec can_write n cams names N CA ND3 fs1) as (fs' & W & O' & T). rewrite W. split; [reflexivity|]. intros m. cbn [fst].
  rewrite run_app. destruct (run_targets can_write n cams names N CA ND3 (run_ops ops fs)) as (O & R).
  destruct (in_dec (list_eq_dec Ascii.ascii_dec) m names) as [I|I]; [|rewrite O, O' by exact I; apply OR].
  revert R. generalize (run_ops (concat (map (fun c => target_ops (cam_args c) n) cams)) (run_ops ops fs)). intros g R. clear - I R T. revert I. induction R as [|c name cams names E R IH]; intros I; [destruct I|]. inversion T; subst. destruct I as [->|I]; [congruence|now apply IH].
Qed.
Print Assumptions C90_frame_operations.

(** A crash anywhere in the call: either it happens in the three path files (C90_rows says what is left of them) and no target file
    has changed, or the path files are complete, and so are the target files of the first cameras; those of later cameras are the
    old ones, and in between one file is old or a beginning of the new one.  No other file has changed. *)
Theorem C90_frame : forall can_write fs cor path cams names cb lb pb n,
  0 < n -> bases_ok can_write cb lb pb n -> length path = length cor -> Forall path_ok path -> Forall corres_ok cor ->
  Forall2 (cam_ok can_write n) cams names -> NoDup (frame_name cb n :: frame_name lb n :: frame_name pb n :: names) ->
  forall fs', crash_in (frame_phases cor path (Z.of_nat (length path)) (map cam_args cams) cb lb pb n) fs fs' ->
  let full := fst (frame_write can_write fs cor path (Z.of_nat (length path)) (map cam_args cams) cb lb (Some pb) n) in
  (forall m, m <> frame_name cb n -> m <> frame_name lb n -> m <> frame_name pb n -> ~ In m names -> fs' m = fs m) /\
  (after_crash (fst (path_ops cor path (Z.of_nat (length path)) cb lb pb n)) fs fs' /\ (forall name, In name names -> fs' name = fs name) \/
   exists k, (k < length names)%nat /\ (forall m, ~ In m names -> fs' m = full m) /\
     forall j name, nth_error names j = Some name ->
       ((j < k)%nat -> fs' name = full name) /\ ((k < j)%nat -> fs' name = fs name) /\
       (j = k -> fs' name = fs name \/ exists t T, fs' name = Some t /\ full name = Some T /\ starts t T)).
Proof.
  intros can_write fs cor path cams names cb lb pb n N BO L HP HC CA ND fs' (complete & now & rest & E & AC). cbv zeta.
  set (full := fst (frame_write _ _ _ _ _ _ _ _ _ _)). pose proof ND as ND0. inversion ND as [|? ? D1 ND1]; inversion ND1 as [|? ? D2 ND2]; inversion ND2 as [|? ? D3 ND3]; subst.
  assert (FULL : forall m, run_ops (concat (frame_phases cor path (Z.of_nat (length path)) (map cam_args cams) cb lb pb n)) fs m = full m)
    by (apply (C90_frame_operations can_write fs cor path cams names cb lb pb n N BO L HP HC CA ND0)).
  unfold frame_phases in *. cbn [concat] in FULL. assert (FULL0 := FULL); clear FULL; assert (FULL : forall m, run_ops (concat (map (fun c => target_ops c n) (map cam_args cams))) (run_ops (fst (path_ops cor path (Z.of_nat (length path)) cb lb pb n)) fs) m = full m) by (intros m; rewrite <- FULL0, run_app; reflexivity); clear FULL0.
  pose proof (path_ops_opens cor path (Z.of_nat (length path)) cb lb pb n) as PO. set (ops := fst (path_ops _ _ _ _ _ _ _)) in *. set (fs1 := run_ops ops fs) in *.
  assert (UN : forall m, m <> frame_name cb n -> m <> frame_name lb n -> m <> frame_name pb n -> fs1 m = fs m).
  { pose proof (ops_run can_write fs cor path (Z.of_nat (length path)) cb lb pb n BO) as OR. pose proof BO as (B1 & B2 & B3 & B4 & B5 & W1 & W2 & W3).
    pose proof (write_path_spec can_write fs cor path cb lb (Some pb) n L HP HC B3 W1 W2 (conj B2 (conj B4 (conj B5 W3)))) as H.
    destruct (write_path_frame can_write fs cor path _ cb lb (Some pb) n) as [g r]. destruct H as (_ & _ & _ & _ & O).
    unfold fs1, ops. destruct (path_ops cor path _ cb lb pb n) as [ops' e]. destruct OR as (_ & OR). cbn [fst]. intros m M1 M2 M3. rewrite OR. apply O; [assumption|assumption|]. now intros p [= <-]. }
  assert (UNN : forall name, In name names -> fs1 name = fs name).
  { intros name I. apply UN; intros ->; [apply D1|apply D2|apply D3]; cbn; auto. }
  destruct complete as [|p complete].
  - injection E as <- E. cbn [concat run_ops fold_left] in AC. destruct AC as (fin & rst & EE & H).
    assert (UM : forall m, m <> frame_name cb n -> m <> frame_name lb n -> m <> frame_name pb n -> fs' m = fs m).
    { intros m M1 M2 M3. apply (H m). intros O. destruct (PO m) as [X|[X|X]]; [|contradiction|contradiction|contradiction]. unfold opened. rewrite EE. apply in_or_app. now left. }
    split; [intros m M1 M2 M3 _; now apply UM|]. left. split; [exists fin, rst; split; assumption|].
    intros name I. apply UM; intros ->; [apply D1|apply D2|apply D3]; cbn; auto.
  - injection E as <- E. cbn [concat] in AC. rewrite run_app in AC. fold fs1 in AC. rewrite map_map in E, FULL.
    apply map_eq_app in E. destruct E as (A & B0 & -> & <- & E). apply map_eq_cons in E. destruct E as (c & B & -> & <- & <-).
    apply Forall2_app_inv_l in CA. destruct CA as (NA & NB0 & CA1 & CA2 & ->). inversion CA2 as [|? name ? NB CC CB]; subst.
    assert (NDA : NoDup NA) by (clear - ND3; induction NA as [|a NA IH]; [constructor|]; cbn in ND3; inversion ND3; subst; constructor; [intros I; apply H1, in_or_app; now left|now apply IH]).
    assert (NDB : NoDup (name :: NB)) by (clear - ND3; induction NA as [|a NA IH]; [exact ND3|]; cbn in ND3; inversion ND3; subst; now apply IH).
    assert (DIS : forall x, In x NA -> ~ In x (name :: NB)).
    { clear - ND3. induction NA as [|a NA IH]; intros x I J; [destruct I|]. cbn in ND3. inversion ND3; subst. destruct I as [->|I]; [apply H1, in_or_app; now right|now apply (IH H2 x)]. }
    rewrite (target_ops_is _ _ _ _ N CC) in AC. apply crash_one in AC. destruct AC as (X & Y).
    destruct (run_targets can_write n A NA N CA1 NDA fs1) as (OA & RA). set (f2 := run_ops (concat (map (fun c => target_ops (cam_args c) n) A)) fs1) in *.
    rewrite map_app, concat_app in FULL. cbn [map concat] in FULL.
    assert (FULL' : forall m, full m = run_ops (concat (map (fun c => target_ops (cam_args c) n) B)) (run_ops (target_ops (cam_args c) n) f2) m).
    { intros m. rewrite <- FULL. rewrite run_app. fold f2. now rewrite run_app. }
    rewrite (target_ops_is _ _ _ _ N CC) in FULL'. inversion NDB as [|? ? NIB NDB']; subst.
    destruct (run_targets can_write n B NB N CB NDB' (run_ops [Open name; Write name (targets_text (fst c) (Z.of_nat (length (fst c))))] f2)) as (OB & RB).
    assert (G : forall m, m <> name -> ~ In m NB -> full m = f2 m).
    { intros m M1 M2. rewrite FULL', OB by exact M2. cbn [run_ops fold_left do_op]. rewrite put_eq. now rewrite !put_neq. }
    assert (GN : full name = Some (targets_text (fst c) (Z.of_nat (length (fst c))))).
    { rewrite FULL', OB by exact NIB. cbn [run_ops fold_left do_op]. rewrite !put_eq. reflexivity. }
    split.
    + intros m M1 M2 M3 M4. rewrite X by (intros ->; apply M4, in_or_app; right; now left). rewrite OA by (intros I; apply M4, in_or_app; now left). now apply UN.
    + right. exists (length NA). split; [rewrite app_length; cbn; lia|]. split.
      * intros m M. rewrite X, G; [reflexivity| | |]; try (intros I; apply M, in_or_app; right; now right); intros ->; apply M, in_or_app; right; now left.
      * intros j nm J. split; [|split].
        -- intros JL. rewrite nth_error_app1 in J by exact JL. apply nth_error_In in J. rewrite X, G; [reflexivity| | |]; intros I; apply (DIS nm J); [left; now symmetry|now right|left; now symmetry].
        -- intros JL. rewrite nth_error_app2 in J by lia. destruct (j - length NA)%nat as [|i] eqn:EJ; [lia|]. cbn [nth_error] in J. apply nth_error_In in J.
           rewrite X by (intros ->; contradiction). rewrite OA by (intros I; apply (DIS nm I); now right). apply UNN, in_or_app. right. now right.
        -- intros ->. rewrite nth_error_app2, Nat.sub_diag in J by lia. cbn [nth_error] in J. injection J as <-. destruct Y as [Y|(t & Y & S)].
           ++ left. rewrite Y, OA by (intros I; apply (DIS name I); now left). apply UNN, in_or_app. right. now left.
           ++ right. exists t, (targets_text (fst c) (Z.of_nat (length (fst c)))). split; [exact Y|]. split; [exact GN|exact S].
Qed.
Print Assumptions C90_frame.
Lemma read_targets_same fs fs' b n name : read_name b n = Ok name -> fs' name = fs name -> read_targets fs' b n = read_targets fs b n.
Proof. intros R E. unfold read_targets. rewrite R. cbn [bind]. now rewrite E. Qed.
Lemma read_all_nth fs n : forall bases ts, read_all_targets fs bases n = Ok ts ->
  length ts = length bases /\ forall j b, nth_error bases j = Some b -> exists t, nth_error ts j = Some t /\ read_targets fs b n = Ok t.
Proof.
  induction bases as [|b bases IH]; intros ts E; cbn [read_all_targets] in E.
  - injection E as <-. split; [reflexivity|]. intros [|j] b H; discriminate.
  - apply bind_ok in E. destruct E as (t & E1 & E). apply bind_ok in E. destruct E as (ts' & E2 & E). injection E as <-. destruct (IH _ E2) as (L & H). split; [cbn; congruence|].
    intros [|j] b' J; cbn [nth_error] in *; [injection J as <-; eauto|now apply H].
Qed.
Lemma F2_nth {A B} (P : A -> B -> Prop) l m : Forall2 P l m -> forall j a, nth_error l j = Some a -> exists b, nth_error m j = Some b /\ P a b.
Proof. intros H. induction H as [|x y l m E H IH]; intros [|j] a J; cbn [nth_error] in *; try discriminate; [injection J as <-; eauto|now apply IH]. Qed.
Lemma paths_complete can_write fs cor path cb lb pb n fs' names : bases_ok can_write cb lb pb n -> length path = length cor -> Forall path_ok path -> Forall corres_ok cor ->
  NoDup (frame_name cb n :: frame_name lb n :: frame_name pb n :: names) ->
  (forall m, ~ In m names -> fs' m = fst (write_path_frame can_write fs cor path (Z.of_nat (length path)) cb lb (Some pb) n) m) ->
  exists cor' path', read_path_frame fs' cb lb (Some pb) n = Ok (map Some cor', path') /\ length cor' = length cor /\ same_corres cor cor' /\ Forall2 (same_path 3) path path'.
Proof.
  intros BO L HP HC ND E. pose proof BO as (B1 & B2 & B3 & B4 & B5 & W1 & W2 & W3).
  pose proof (write_path_spec can_write fs cor path cb lb (Some pb) n L HP HC B3 W1 W2 (conj B2 (conj B4 (conj B5 W3)))) as H.
  destruct (write_path_frame can_write fs cor path _ cb lb (Some pb) n) as [fs1 r]. destruct H as (R & C & LT & PT & O). cbn [fst] in E.
  inversion ND as [|? ? D1 ND1]; inversion ND1 as [|? ? D2 ND2]; inversion ND2 as [|? ? D3 ND3]; subst.
  exists (back_corr 0 cor), (map (back_path true true) path). split.
  { apply (read_path_spec fs' cor path cb lb pb n true true L HP HC).
    - rewrite E; [assumption|]. intros I. apply D1. now do 2 right.
    - intros _. split; [assumption|]. rewrite E; [assumption|]. intros I. apply D2. now right.
    - intros _. split; [assumption|]. rewrite E; [now apply PT|]. exact D3. }
  split; [apply back_corr_length|]. split; [split; [apply back_corr_same|intros i d I; apply back_corr_nr in I; lia]|].
  clear - HP. induction HP as [|p path P HP IH]; cbn; constructor; [|exact IH]. now apply back_path_same.
Qed.
Lemma full_paths can_write fs cor path cams names cb lb pb n : 0 < n -> bases_ok can_write cb lb pb n -> length path = length cor -> Forall path_ok path -> Forall corres_ok cor ->
  Forall2 (cam_ok can_write n) cams names -> NoDup names ->
  let full := fst (frame_write can_write fs cor path (Z.of_nat (length path)) (map cam_args cams) cb lb (Some pb) n) in
  (forall m, ~ In m names -> full m = fst (write_path_frame can_write fs cor path (Z.of_nat (length path)) cb lb (Some pb) n) m) /\
  Forall2 (fun c name => full name = Some (targets_text (fst c) (Z.of_nat (length (fst c))))) cams names.
Proof.
  intros N BO L HP HC CA ND. pose proof BO as (B1 & B2 & B3 & B4 & B5 & W1 & W2 & W3).
  pose proof (write_path_spec can_write fs cor path cb lb (Some pb) n L HP HC B3 W1 W2 (conj B2 (conj B4 (conj B5 W3)))) as H.
  unfold frame_write. destruct (write_path_frame can_write fs cor path _ cb lb (Some pb) n) as [fs1 r]. destruct H as (-> & _).
  destruct (write_all_spec can_write n cams names N CA ND fs1) as (fs' & W & O' & T). rewrite W. cbn [fst]. split; assumption.
Qed.
(** Reading after such a crash: either the crash was in the path files, and the targets are the old ones, or particles and
    correspondences are the new ones; the targets of the first cameras are new, those of the last cameras old, and at most one camera
    has a file that is a beginning of the new one (C90_targets). *)
Theorem C90_frame_read : forall can_write fs cor path cams names cb lb pb n,
  0 < n -> bases_ok can_write cb lb pb n -> length path = length cor -> Forall path_ok path -> Forall corres_ok cor ->
  Forall2 (cam_ok can_write n) cams names -> NoDup (frame_name cb n :: frame_name lb n :: frame_name pb n :: names) ->
  forall fs', crash_in (frame_phases cor path (Z.of_nat (length path)) (map cam_args cams) cb lb pb n) fs fs' ->
  forall f ok, frame_read fs' cb lb (Some pb) (map snd cams) n = Ok (f, ok) ->
  after_crash (fst (path_ops cor path (Z.of_nat (length path)) cb lb pb n)) fs fs' /\ read_all_targets fs (map snd cams) n = Ok (if_targ f) \/
  if_num f = Z.of_nat (length path) /\ (exists cor', if_corr f = map Some cor' /\ same_corres cor cor') /\ Forall2 (same_path 3) path (if_path f) /\
  length (if_targ f) = length cams /\ exists k, (k < length cams)%nat /\ forall j ts b, nth_error cams j = Some (ts, b) -> exists ts', nth_error (if_targ f) j = Some ts' /\
    ((j < k)%nat -> Forall2 (same_target 4) ts ts') /\ ((k < j)%nat -> read_targets fs b n = Ok ts') /\
    (j = k -> read_targets fs b n = Ok ts' \/ length ts' = length ts /\ Forall2 (same_target 4) (firstn (length ts - 1) ts) (firstn (length ts - 1) ts')).
Proof.
  intros can_write fs cor path cams names cb lb pb n N BO L HP HC CA ND fs' CR f ok RD.
  destruct (C90_frame can_write fs cor path cams names cb lb pb n N BO L HP HC CA ND fs' CR) as (_ & [(AC & U)|(k & K & U & V)]);
    rewrite frame_read_eq in RD; apply bind_ok in RD; destruct RD as ([c p] & RP & RD); apply bind_ok in RD; destruct RD as (ts & RT & RD); injection RD as <- <-; cbn [if_num if_corr if_path if_targ].
  - left. split; [exact AC|]. rewrite <- RT. clear RT CR AC RP ND L HP HC. induction CA as [|[t b] name cams names C CA IH]; [reflexivity|]. cbn [map read_all_targets snd]. destruct C as (_ & _ & _ & _ & C & _). cbn [snd] in C.
    rewrite (read_targets_same fs fs' b n name C) by (apply U; now left). rewrite IH by (intros nm I; apply U; now right). reflexivity.
  - right. assert (ND3 : NoDup names) by (inversion ND as [|? ? D1 ND1]; inversion ND1 as [|? ? D2 ND2]; inversion ND2 as [|? ? D3 ND3]; subst; exact ND3).
    destruct (full_paths can_write fs cor path cams names cb lb pb n N BO L HP HC CA ND3) as (F1 & F2). cbv zeta in F1, F2. set (full := fst (frame_write _ _ _ _ _ _ _ _ _ _)) in *.
    destruct (paths_complete can_write fs cor path cb lb pb n fs' names BO L HP HC ND) as (cor' & path' & R & LC & SC & SP); [intros m M; rewrite U by exact M; now apply F1|].
    rewrite R in RP. injection RP as <- <-. split; [now rewrite map_length, LC, L|]. split; [eauto|]. split; [exact SP|].
    destruct (read_all_nth _ _ _ _ RT) as (LT & NT). rewrite map_length in LT. split; [exact LT|]. exists k. split; [now rewrite (F2_length _ _ _ CA)|].
    intros j tj b J. destruct (F2_nth _ _ _ CA j _ J) as (name & JN & C). destruct (F2_nth _ _ _ F2 j _ J) as (name' & JN' & FN). rewrite JN in JN'. injection JN' as <-. cbn [fst] in FN.
    destruct C as (C1 & C2 & C3 & C4 & C5 & C6). cbn [fst snd] in *. destruct (NT j b) as (ts' & JT & RB); [now rewrite nth_error_map, J|]. exists ts'. split; [exact JT|].
    destruct (V j name JN) as (V1 & V2 & V3). split; [|split].
    + intros JK. rewrite (read_targets_text fs' b n name tj C5) in RB; [|now rewrite V1, FN|exact C2]. injection RB as <-. clear - C2. induction C2 as [|t l H T IH]; cbn [map]; constructor; [now apply back_same|exact IH].
    + intros JK. rewrite <- RB. symmetry. now apply (read_targets_same fs fs' b n name C5), V2.
    + intros JK. destruct (V3 JK) as [V4|(t & T & V4 & V5 & V6)].
      * left. rewrite <- RB. symmetry. now apply (read_targets_same fs fs' b n name C5).
      * right. rewrite FN in V5. injection V5 as <-. exact (C90_targets fs' tj b n name t C1 C2 C5 V4 V6 ts' RB).
Qed.
Print Assumptions C90_frame_read.
(** Refuted: one sees the old frame or the new one.  Whatever targets could be read before, a crash between the path files and the
    target files leaves a frame that is read without complaint and has the new particles with all the old targets. *)
Theorem C90_mixed_refuted : forall can_write fs cor path cams names cb lb pb n old,
  0 < n -> bases_ok can_write cb lb pb n -> length path = length cor -> Forall path_ok path -> Forall corres_ok cor -> cams <> [] ->
  Forall2 (cam_ok can_write n) cams names -> NoDup (frame_name cb n :: frame_name lb n :: frame_name pb n :: names) ->
  read_all_targets fs (map snd cams) n = Ok old ->
  exists fs' f, crash_in (frame_phases cor path (Z.of_nat (length path)) (map cam_args cams) cb lb pb n) fs fs' /\
    frame_read fs' cb lb (Some pb) (map snd cams) n = Ok (f, true) /\ if_targ f = old /\
    (exists cor', if_corr f = map Some cor' /\ same_corres cor cor') /\ Forall2 (same_path 3) path (if_path f).
Proof.
  intros can_write fs cor path cams names cb lb pb n old N BO L HP HC NE CA ND OLD.
  pose proof (ops_run can_write fs cor path (Z.of_nat (length path)) cb lb pb n BO) as OR. pose proof BO as (B1 & B2 & B3 & B4 & B5 & W1 & W2 & W3).
  pose proof (write_path_spec can_write fs cor path cb lb (Some pb) n L HP HC B3 W1 W2 (conj B2 (conj B4 (conj B5 W3)))) as H.
  set (ops := fst (path_ops cor path (Z.of_nat (length path)) cb lb pb n)).
  assert (EQ : forall m, run_ops ops fs m = fst (write_path_frame can_write fs cor path (Z.of_nat (length path)) cb lb (Some pb) n) m).
  { unfold ops. destruct (write_path_frame can_write fs cor path _ cb lb (Some pb) n) as [g r]. destruct (path_ops cor path _ cb lb pb n) as [o e]. apply OR. }
  destruct (paths_complete can_write fs cor path cb lb pb n (run_ops ops fs) names BO L HP HC ND) as (cor' & path' & R & LC & SC & SP); [intros m _; apply EQ|].
  exists (run_ops ops fs), (mk_io_frame (map Some cor') path' old (map (fun t => Z.of_nat (length t)) old) (Z.of_nat (length (map Some cor')))). split.
  - destruct cams as [|c cams]; [contradiction|]. exists [ops], (target_ops (cam_args c) n), (map (fun c => target_ops c n) (map cam_args cams)). split; [reflexivity|].
    cbn [concat]. rewrite app_nil_r. exists [], (target_ops (cam_args c) n). split; [reflexivity|]. intros m. split; [reflexivity|intros []].
  - split; [|split; [reflexivity|]; cbn [if_corr if_path]; split; [eauto|exact SP]]. rewrite frame_read_eq, R. cbn [bind].
    replace (read_all_targets (run_ops ops fs) (map snd cams) n) with (Ok old); [reflexivity|]. rewrite <- OLD.
    assert (SAME : forall name, In name names -> fs name = run_ops ops fs name).
    { intros name I. rewrite EQ. destruct (write_path_frame can_write fs cor path _ cb lb (Some pb) n) as [g r]. destruct H as (_ & _ & _ & _ & O). cbn [fst]. symmetry.
      inversion ND as [|? ? D1 ND1]; inversion ND1 as [|? ? D2 ND2]; inversion ND2 as [|? ? D3 ND3]; subst.
      apply O; [intros ->; apply D1; now do 2 right|intros ->; apply D2; now right|intros p [= <-] ->; now apply D3]. }
    clear - CA SAME. induction CA as [|[t b] name cams names C CA IH]; [reflexivity|]. cbn [map read_all_targets snd]. destruct C as (_ & _ & _ & _ & C & _). cbn [snd] in C.
    rewrite (read_targets_same (run_ops ops fs) fs b n name C) by (apply SAME; now left). rewrite IH by (intros nm I; apply SAME; now right). reflexivity.
Qed.
Print Assumptions C90_mixed_refuted.
(** the hypotheses are met: the frame of C90_digit_refuted with two cameras *)
Example C90_frame_case : let cams := [(targets90, txt "cam1.%05d"); (targets90, txt "cam2.%05d")] in let names := [txt "cam1.00005_targets"; txt "cam2.00005_targets"] in
  bases_ok (fun _ => true) (txt "rt") (txt "ptv") (txt "add") 5 /\ Forall path_ok path90 /\ Forall corres_ok cor90 /\ length path90 = length cor90 /\
  Forall2 (cam_ok (fun _ => true) 5) cams names /\ NoDup (frame_name (txt "rt") 5 :: frame_name (txt "ptv") 5 :: frame_name (txt "add") 5 :: names).
Proof.
  cbv zeta. destruct C90_digit_refuted as (A & B & C & _). destruct C90_targets_refuted as (T1 & T2 & _).
  split; [exact A|]. split; [exact B|]. split; [exact C|]. split; [reflexivity|]. split.
  - repeat (apply Forall2_cons; [split; [exact T1|]; split; [exact T2|]; cbn [snd]; split; [vm_compute; intros H; repeat (destruct H as [H|H]; [discriminate H|]); exact H|]; split; [vm_compute; tauto|]; split; [vm_compute; reflexivity|reflexivity]|]). apply Forall2_nil.
  - repeat (apply NoDup_cons; [vm_compute; intros H; repeat (destruct H as [H|H]; [discriminate H|]); exact H|]). apply NoDup_nil.
Qed.
