(** Property C90: a crash while a frame is written. *)
From Coq Require Import Reals Psatz.
From Verif Require Import F64 F64R Model_text Proof_text Proof_text2 Model_corr Model_track Model_io Spec_io Proof_io Proof_io2 Proof_io3 Prop_io Model_crash Spec_crash Proof_crash Lib Base.
Local Open Scope Z_scope.

(** ===== C90 =====
    The operations, all carried out, have the effect of the whole function (C29). *)
Theorem C90_operations : forall can_write fs cor path num cb lb pb n, bases_ok can_write cb lb pb n ->
  let '(fs', r) := write_path_frame can_write fs cor path num cb lb (Some pb) n in let '(ops, e) := path_ops cor path num cb lb pb n in
  r = match e with Some e => Exn e | None => Ok true end /\ forall m, run_ops ops fs m = fs' m.
Proof. exact ops_run. Qed.
Print Assumptions C90_operations.

(** A crash at any point, with any part of the written text still in the buffers: either nothing has changed, or, if the frame can
    be read at all, the rows that are complete in all three files are the ones that were to be written; and once the count is
    complete, and the other two files exist, the number of particles is right. *)
Lemma opened_split cor path num cb lb pb n finished rest : cb <> lb -> pb <> cb -> pb <> lb ->
  fst (path_ops cor path num cb lb pb n) = finished ++ rest -> forall m, opened m finished -> ~ opened m rest.
Proof.
  intros D1 D2 D3 E m O R. unfold path_ops in E. set (cn := frame_name cb n) in *. set (ln := frame_name lb n) in *. set (pn := frame_name pb n) in *.
  assert (N1 : cn <> ln) by (intros X; apply frame_name_inj in X; congruence). assert (N2 : pn <> cn) by (intros X; apply frame_name_inj in X; congruence). assert (N3 : pn <> ln) by (intros X; apply frame_name_inj in X; congruence).
  pose proof (row_ops_noopen cn ln pn cor path (zrange 0 num)) as NO. destruct (row_ops cn ln pn _ cor path) as [ops e]. cbn [fst] in *.
  set (names := fun l => flat_map (fun o => match o with Open x => [x] | Write _ _ => [] end) l : list text).
  assert (IN : forall l x, opened x l <-> In x (names l)).
  { intros l x. unfold names, opened. rewrite in_flat_map. split; [intros H; exists (Open x); split; [exact H|now left]|]. intros ([y|y t] & H & I); [destruct I as [->|[]]; exact H|destruct I]. }
  assert (Z : names ops = []). { destruct (names ops) as [|x l] eqn:Q; [reflexivity|]. exfalso. apply (NO x), IN. rewrite Q. now left. }
  assert (ND : NoDup (names (finished ++ rest))).
  { rewrite <- E. unfold names in *. rewrite flat_map_app, Z. cbn. repeat constructor; cbn; intros H; repeat (destruct H as [H|H]; [congruence|]); exact H. }
  unfold names in ND. rewrite flat_map_app in ND. fold (names finished) (names rest) in ND. apply IN in O. apply IN in R. clear - ND O R.
  revert ND O. generalize (names rest) R. generalize (names finished). intros a b Rb. induction a as [|x a IH]; intros N O; [destruct O|]. cbn in N. inversion N as [|? ? H1 H2]; subst. destruct O as [->|O]; [apply H1, in_or_app; now right|now apply IH].
Qed.
Theorem C90_rows : forall can_write fs cor path cb lb pb n, bases_ok can_write cb lb pb n ->
  length path = length cor -> Forall path_ok path -> Forall corres_ok cor ->
  forall fs', after_crash (fst (path_ops cor path (Z.of_nat (length path)) cb lb pb n)) fs fs' ->
  (forall m, fs' m = fs m) \/
  forall cor' path', read_path_frame fs' cb lb (Some pb) n = Ok (cor', path') ->
    (has_rows fs' (frame_name cb n) 0 -> fs' (frame_name lb n) <> None -> fs' (frame_name pb n) <> None -> length cor' = length cor /\ length path' = length path) /\
    forall k, has_rows fs' (frame_name cb n) k -> has_rows fs' (frame_name lb n) k -> has_rows fs' (frame_name pb n) k ->
      (k <= length path)%nat /\ (exists c, firstn k cor' = map Some c /\ same_corres (firstn k cor) c) /\ Forall2 (same_path 3) (firstn k path) (firstn k path').
Proof.
  intros can_write fs cor path cb lb pb n OKB L HP HC fs' (finished & rest & E & CR). pose proof OKB as (LN & PN & D & PC & PL & W1 & W2 & W3).
  set (cn := frame_name cb n) in *. set (ln := frame_name lb n) in *. set (pn := frame_name pb n) in *.
  assert (N1 : cn <> ln) by (intros X; apply frame_name_inj in X; congruence). assert (N2 : pn <> cn) by (intros X; apply frame_name_inj in X; congruence). assert (N3 : pn <> ln) by (intros X; apply frame_name_inj in X; congruence).
  pose proof (opened_split _ _ _ _ _ _ _ _ _ D PC PL E) as SP.
  (* the final contents *)
  pose proof (write_path_spec can_write fs cor path cb lb (Some pb) n L HP HC D W1 W2 (conj PN (conj PC (conj PL W3)))) as W.
  pose proof (ops_run can_write fs cor path (Z.of_nat (length path)) cb lb pb n OKB) as OR.
  destruct (write_path_frame can_write fs cor path _ cb lb (Some pb) n) as [fsN r]. destruct W as (-> & C1 & C2 & C3 & _). specialize (C3 pb eq_refl). fold cn in C1. fold ln in C2. fold pn in C3.
  destruct (path_ops cor path (Z.of_nat (length path)) cb lb pb n) as [ops e] eqn:EO. cbn [fst] in *. destruct OR as (_ & RUN).
  (* an opened file holds a beginning of its final content *)
  assert (BEG : forall m c, opened m finished -> fsN m = Some c -> exists t, fs' m = Some t /\ starts t c).
  { intros m c O F. destruct (CR m) as (_ & H). destruct (H O) as (t & T & c0 & R & S). exists t. split; [exact T|]. destruct (run_grows rest m (SP m O) _ _ R) as (c1 & R1 & S1).
    rewrite <- run_app, <- E, RUN, F in R1. injection R1 as <-. now apply starts_trans with c0. }
  (* the first operations *)
  unfold path_ops in EO. fold cn ln pn in EO. set (h := line (print_int (Z.of_nat (length path)))) in *. destruct (row_ops cn ln pn _ cor path) as [rops e0]. injection EO as EO _. cbn [app] in EO.
  destruct finished as [|o1 finished]; [left; intros m; apply CR; intros []|]. right.
  assert (o1 = Open cn) as -> by (rewrite <- EO in E; now injection E). 
  assert (OC : opened cn (Open cn :: finished)) by now left.
  destruct (BEG cn _ OC C1) as (tc & TC & SC).
  assert (ALL : (2 <= newlines tc)%nat -> opened ln (Open cn :: finished) /\ opened pn (Open cn :: finished)).
  { intros NL. destruct (CR cn) as (_ & H). destruct (H OC) as (t & T & c0 & R & S). assert (t = tc) as -> by congruence. apply newlines_starts in S. clear H T.
    assert (H1 : newlines h = 1%nat) by (apply newlines_line, pi_noline).
    rewrite <- EO in E. cbn [app] in E. injection E as E.
    destruct finished as [|o2 [|o3 [|o4 [|o5 f']]]]; cbn [app] in E.
    - cbn [run_ops fold_left do_op] in R. rewrite put_eq in R. injection R as <-. cbn in S. lia.
    - injection E as <- _. cbn [run_ops fold_left do_op] in R. rewrite !put_eq in R. injection R as <-. cbn [app] in S. lia.
    - injection E as <- <- _. cbn [run_ops fold_left do_op] in R. rewrite put_neq, !put_eq in R by assumption. injection R as <-. cbn [app] in S. lia.
    - injection E as <- <- <- _. cbn [run_ops fold_left do_op] in R. rewrite !put_neq, !put_eq in R by assumption. injection R as <-. cbn [app] in S. lia.
    - injection E as <- <- <- <- _. unfold opened. cbn [In]. auto 10. }
  intros cor' path' RD. unfold read_path_frame in RD. fold cn in RD. rewrite TC in RD.
  assert (NLC : Forall noline (print_int (Z.of_nat (length path)) :: crows 0 (combine path cor))) by (constructor; [apply pi_noline|apply crows_noline]).
  assert (NLL : Forall noline (print_int (Z.of_nat (length path)) :: map ltxt path)) by (constructor; [apply pi_noline|apply map_noline, ltxt_noline]).
  assert (NLP : Forall noline (print_int (Z.of_nat (length path)) :: map ptxt path)) by (constructor; [apply pi_noline|apply map_noline, ptxt_noline]).
  split.
  - intros (t & T & K) XL XP. assert (t = tc) as -> by congruence. destruct (begin_lines _ NLC tc 1 SC K) as (ls & LS & _). rewrite LS in RD. cbn [firstn app readline] in RD. rewrite parse_print_int in RD. cbn [bind] in RD.
    destruct (Z.ltb_spec (Z.of_nat (length path)) 0); [lia|].
    destruct lb as [|c0 lb]; [contradiction|]. destruct pb as [|c1 pb]; [contradiction|]. unfold opt_name in RD. fold ln in RD, XL. fold pn in RD, XP.
    destruct (fs' ln) as [tl|]; [|contradiction]. destruct (fs' pn) as [tp|]; [|contradiction]. cbn [option_map] in RD. apply rows_length in RD. rewrite Nat2Z.id, Nat.sub_0_r in RD. destruct RD as (-> & ->). auto.
  - intros [|k] KC KL KP; [split; [lia|]; split; [exists []; split; [reflexivity|]; split; [reflexivity|intros [|i] d H; discriminate]|constructor]|].
    destruct KC as (t & T & K). assert (t = tc) as -> by congruence. destruct (ALL ltac:(lia)) as (OL & OP). remember (S k) as k1. clear Heqk1 k. destruct (BEG ln _ OL C2) as (tl & TL & SL). destruct (BEG pn _ OP C3) as (tp & TP & SPn).
    destruct KL as (t & T' & KL). assert (t = tl) as -> by congruence. destruct KP as (t & T'' & KP). assert (t = tp) as -> by congruence.
    destruct (begin_lines _ NLC tc (S k1) SC K) as (rc & LC & BC). destruct (begin_lines _ NLL tl (S k1) SL KL) as (rl & LL & BL). destruct (begin_lines _ NLP tp (S k1) SPn KP) as (rp & LP & BP).
    rewrite LC in RD. cbn [firstn app readline] in RD. rewrite parse_print_int in RD. cbn [bind] in RD. destruct (Z.ltb_spec (Z.of_nat (length path)) 0); [lia|].
    destruct lb as [|c0 lb]; [contradiction|]. destruct pb as [|c1 pb]; [contradiction|]. unfold opt_name in RD. fold ln in RD. fold pn in RD. rewrite TL, TP in RD. cbn [option_map] in RD. rewrite LL, LP in RD.
    assert (LK : (k1 <= length path)%nat) by (cbn [length] in BL; rewrite map_length in BL; lia).
    clear K KL KP BC BL BP. cbn [firstn app readline snd] in RD. rewrite crows_firstn in RD.
    pose proof (combine_ok path cor L HP HC) as CO. rewrite <- (firstn_skipn k1 (combine path cor)) in CO. apply Forall_app in CO. destruct CO as (CO & _).
    assert (E1 : map fst (firstn k1 (combine path cor)) = firstn k1 path) by (rewrite <- firstn_map, combine_fst by assumption; reflexivity).
    assert (E2 : map snd (firstn k1 (combine path cor)) = firstn k1 cor) by (rewrite <- firstn_map, combine_snd by assumption; reflexivity).
    rewrite !firstn_map, <- E1, !map_map in RD. apply (rows_begin rc rl rp (firstn k1 (combine path cor)) CO 0) in RD. destruct RD as (c' & p' & -> & ->). rewrite E1, E2. cbn [Z.of_nat].
    assert (HP' : Forall path_ok (firstn k1 path)) by (rewrite <- (firstn_skipn k1 path) in HP; now apply Forall_app in HP).
    assert (F : forall A (a b : list A) j, length a = j -> firstn j (a ++ b) = a) by (intros A a b j <-; rewrite firstn_app, Nat.sub_diag, firstn_all, app_nil_r; reflexivity).
    split; [exact LK|]. rewrite F by (rewrite map_length, back_corr_length, firstn_length; lia). rewrite F by (rewrite map_length, firstn_length; lia). split.
    + exists (back_corr 0 (firstn k1 cor)). split; [reflexivity|]. split; [apply back_corr_same|intros i d Hd; apply back_corr_nr in Hd; lia].
    + clear - HP'. induction HP' as [|p l P HP' IH]; cbn [map]; constructor; [now apply back_path_same|exact IH].
Qed.
Print Assumptions C90_rows.

(** the files of the other frames survive *)
Lemma row_ops_names cn ln pn cor path rows o : In o (fst (row_ops cn ln pn rows cor path)) -> exists m t, o = Write m t.
Proof. destruct o as [m|m t]; [|eauto]. intros I. exfalso. exact (row_ops_noopen cn ln pn cor path rows m I). Qed.
Theorem C90_other_frames : forall fs cor path num cb lb pb n fs', after_crash (fst (path_ops cor path num cb lb pb n)) fs fs' ->
  forall m, m <> n -> (forall b, fs' (frame_name b m) = fs (frame_name b m)) /\
  forall cb' lb' pb', read_path_frame fs' cb' lb' pb' m = read_path_frame fs cb' lb' pb' m.
Proof.
  intros fs cor path num cb lb pb n fs' (finished & rest & E & CR) m D.
  assert (K : forall b, fs' (frame_name b m) = fs (frame_name b m)).
  { intros b. apply CR. intros O. assert (I : opened (frame_name b m) (fst (path_ops cor path num cb lb pb n))) by (rewrite E; apply in_or_app; now left).
    unfold path_ops in I. pose proof (row_ops_noopen (frame_name cb n) (frame_name lb n) (frame_name pb n) cor path (zrange 0 num)) as NO. destruct (row_ops _ _ _ _ cor path) as [ops e]. cbn [fst app] in *.
    unfold opened in I. cbn [In] in I. repeat (destruct I as [I|I]; [try discriminate; injection I as I; apply C29_names in I; destruct I; congruence|]). exact (NO _ I). }
  split; [exact K|]. intros cb' lb' pb'. unfold read_path_frame, opt_name. rewrite K. destruct (fs (frame_name cb' m)) as [content|]; [|reflexivity]. rewrite !K. reflexivity.
Qed.
Print Assumptions C90_other_frames.

(** Refuted: writing is not atomic.  Whatever frame was stored before, a crash can leave neither the old nor the new one: *)
Theorem C90_lost_refuted : forall fs cor path num cb lb pb n, exists fs',
  after_crash (fst (path_ops cor path num cb lb pb n)) fs fs' /\ forall lb' pb', read_path_frame fs' cb lb' pb' n = Exn ValueError.
Proof.
  intros fs cor path num cb lb pb n. exists (put fs (frame_name cb n) []). split.
  - unfold path_ops. destruct (row_ops _ _ _ _ cor path) as [ops e]. cbn [fst app]. eexists [_], _. split; [reflexivity|]. intros m. split.
    + intros N. apply put_neq. intros ->. apply N. now left.
    + intros [O|[]]. injection O as <-. exists []. rewrite put_eq. split; [reflexivity|]. exists []. split; [cbn [run_ops fold_left do_op]; apply put_eq|apply starts_refl].
  - intros lb' pb'. unfold read_path_frame. rewrite put_eq. reflexivity.
Qed.
Print Assumptions C90_lost_refuted.

(** Refuted: a frame that can be read after a crash need not be right.  Of two particles the second is complete but for the end of
    its last number: target 12 of camera 4 has become target 1, without any error.  (Also the non-trivial case of C90_rows: one row
    is complete in all files.) *)
Definition path90 : list path_rec := [sample_path; sample_path].
Definition cor90 : list corres := [sample_corres; mk_corres 2 [0; 1; 2; 12]].
Definition ops90 : list file_op := fst (path_ops cor90 path90 2 (txt "rt") (txt "ptv") (txt "add") 5).
Definition none90 : files := fun _ => None.
Definition content90 (m : text) : text := match run_ops ops90 none90 m with Some t => t | None => [] end.
Definition crashed90 : files := fun m =>
  if teqb m (txt "rt.5") then Some (firstn (length (content90 (txt "rt.5")) - 2) (content90 (txt "rt.5"))) else
  if teqb m (txt "ptv.5") then Some (content90 (txt "ptv.5")) else if teqb m (txt "add.5") then Some (content90 (txt "add.5")) else None.
Theorem C90_digit_refuted :
  bases_ok (fun _ => true) (txt "rt") (txt "ptv") (txt "add") 5 /\ Forall path_ok path90 /\ Forall corres_ok cor90 /\ after_crash ops90 none90 crashed90 /\
  has_rows crashed90 (txt "rt.5") 1 /\ has_rows crashed90 (txt "ptv.5") 2 /\ has_rows crashed90 (txt "add.5") 2 /\
  match read_path_frame crashed90 (txt "rt") (txt "ptv") (Some (txt "add")) 5 with
  | Ok ([Some c; Some d], [p; q]) => co_p c = [5; -1; 7; 8] /\ co_p d = [0; 1; 2; 1] /\ pr_next q = -2
  | _ => False end.
Proof.
  split; [repeat split; discriminate|]. destruct C29_example as (_ & P & C). split; [repeat constructor; apply P|].
  split. { repeat (constructor; [exact C|]). constructor; [|constructor]. split; [reflexivity|]. repeat constructor; unfold int32; assert (100 < 2 ^ 31) by reflexivity; lia. }
  split.
  { exists ops90, []. split; [now rewrite app_nil_r|]. intros m. split.
    - intros N. unfold crashed90. destruct (teqb_spec m (txt "rt.5")) as [->|M1]; [exfalso; apply N; vm_compute; auto|].
      destruct (teqb_spec m (txt "ptv.5")) as [->|M2]; [exfalso; apply N; vm_compute; auto 6|]. destruct (teqb_spec m (txt "add.5")) as [->|M3]; [exfalso; apply N; vm_compute; auto 10|]. reflexivity.
    - intros O. assert (M : m = txt "rt.5" \/ m = txt "ptv.5" \/ m = txt "add.5").
      { unfold opened in O. vm_compute in O. repeat (destruct O as [O|O]; [first [discriminate|injection O as <-; auto]|]). destruct O. }
      assert (K : forall x, run_ops ops90 none90 x = Some (content90 x) -> forall j, starts (firstn j (content90 x)) (content90 x)) by (intros x _ j; exists (skipn j (content90 x)); now rewrite firstn_skipn).
      destruct M as [->|[->| ->]]; (eexists; split; [unfold crashed90; reflexivity|]); (eexists; split; [vm_compute; reflexivity|]);
        [exists (skipn (length (content90 (txt "rt.5")) - 2) (content90 (txt "rt.5"))); vm_compute; reflexivity|exists []; vm_compute; reflexivity|exists []; vm_compute; reflexivity]. }
  split; [eexists; split; [unfold crashed90; reflexivity|vm_compute; lia]|]. split; [eexists; split; [unfold crashed90; reflexivity|vm_compute; lia]|]. split; [eexists; split; [unfold crashed90; reflexivity|vm_compute; lia]|].
  vm_compute. auto.
Qed.
Print Assumptions C90_digit_refuted.

(** ---- target files ---- *)
Lemma leading f n : 0 < n < 10 ^ Z.of_nat f -> exists l d, dec_rev f n = l ++ [d] /\ 0 < d.
Proof.
  revert n. induction f as [|f IH]; intros n H; [cbn in H; lia|]. cbn [dec_rev]. destruct (Z.ltb_spec n 10) as [L|L]; [exists [], n; split; [reflexivity|lia]|].
  rewrite Nat2Z.inj_succ, Z.pow_succ_r in H by lia. assert (D : 0 < n / 10 < 10 ^ Z.of_nat f) by (split; [apply Z.div_str_pos; lia|apply Z.div_lt_upper_bound; lia]).
  destruct (IH _ D) as (l & d & -> & P). exists (n mod 10 :: l), d. split; [reflexivity|exact P].
Qed.
Lemma digits_nonneg ds : Forall isd ds -> 0 <= digits_val ds.
Proof.
  induction ds as [|d ds IH] using rev_ind; intros H; [cbn; lia|]. apply Forall_app in H. destruct H as (H & D). inversion D as [|? ? D1 _]; subst. rewrite digits_val_snoc. unfold isd in D1. specialize (IH H). lia.
Qed.
(** a beginning of a printed positive number is no number, or a positive one *)
Lemma begin_number n t : 0 < n -> starts t (print_int n) -> t = [] \/ (word t /\ exists m, parse_int t = Ok m /\ 0 < m).
Proof.
  intros N (s & E). destruct t as [|c t]; [now left|]. right. unfold print_int in E. destruct (Z.ltb_spec n 0); [lia|].
  unfold print_nat in E. destruct (leading (S (Z.to_nat (Z.log2 n))) n) as (l & d & EL & D); [split; [exact N|apply fuel_enough; lia]|].
  pose proof (dec_rev_digits (S (Z.to_nat (Z.log2 n))) n ltac:(lia)) as DD. rewrite EL in E, DD. rewrite rev_app_distr in E. cbn [rev app map] in E.
  apply Forall_app in DD. destruct DD as (DL & Dd). inversion Dd as [|? ? D1 _]; subst.
  cbn [app] in E. injection E as E0 E. apply map_eq_app in E. destruct E as (a & b & Eab & <- & <-). subst c.
  assert (FA : Forall isd (d :: a)). { constructor; [exact D1|]. apply Forall_rev in DL. rewrite Eab in DL. now apply Forall_app in DL. }
  assert (W : word (map digit_char (d :: a))) by (split; [discriminate|now apply digits_nospace]). change (digit_char d :: map digit_char a) with (map digit_char (d :: a)).
  split; [exact W|]. exists (digits_val (d :: a)). split.
  - unfold parse_int. rewrite strip_nospace by apply W. rewrite <- (app_nil_r (map _ _)), sign_digits by (assumption || discriminate). rewrite app_nil_r, span_map' by exact FA. reflexivity.
  - change (d :: a) with ([d] ++ a). rewrite digits_val_app. assert (0 <= digits_val a) by (apply digits_nonneg; now inversion FA). change (digits_val [d]) with d.
    assert (0 < 10 ^ Z.of_nat (length a)) by (apply Z.pow_pos_nonneg; lia). nia.
Qed.
Lemma lines_few t : (length (lines t) <= newlines t + 1)%nat.
Proof.
  assert (K : forall t cur, (length (lines_aux t cur) <= newlines t + 1)%nat); [|apply K].
  clear t. induction t as [|c t IH]; intros cur; cbn [lines_aux]; [destruct cur; cbn; lia|]. unfold newlines. cbn [filter].
  destruct (aeqb c nl); cbn [length]; fold (newlines t); [specialize (IH []); lia|apply IH].
Qed.
Lemma rows_count k ls ts : read_rows k ls = Ok ts -> length ts = k /\ (k <= length ls)%nat.
Proof.
  revert ls ts. induction k as [|k IH]; intros ls ts E; cbn [read_rows] in E; [injection E as <-; split; [reflexivity|lia]|].
  destruct ls as [|l ls]; cbn [readline] in E; [discriminate|]. apply bind_ok in E. destruct E as (t & _ & E). apply bind_ok in E. destruct E as (ts' & R & E). injection E as <-. apply IH in R. cbn [length]. lia.
Qed.
Lemma rows_first ts rest : Forall target_ok ts -> forall k out, read_rows k (map target_row ts ++ rest) = Ok out -> (length ts <= k)%nat -> exists out', out = map back_target ts ++ out'.
Proof.
  intros H. induction H as [|t ts T H IH]; intros k out E L; [exists out; reflexivity|]. destruct k as [|k]; [cbn in L; lia|]. cbn [map app read_rows readline] in E. rewrite parse_row in E by exact T. cbn [bind] in E.
  apply bind_ok in E. destruct E as (o & R & E). injection E as <-. destruct (IH k o R ltac:(cbn in L; lia)) as (out' & ->). now exists out'.
Qed.
(** A target file of which only some beginning was written: if it can be read, there are as many targets as there should be and all
    but the last are right. *)
Theorem C90_targets : forall fs ts base n name t, ts <> [] -> Forall target_ok ts -> read_name base n = Ok name ->
  fs name = Some t -> starts t (targets_text ts (Z.of_nat (length ts))) ->
  forall ts', read_targets fs base n = Ok ts' ->
    length ts' = length ts /\ Forall2 (same_target 4) (firstn (length ts - 1) ts) (firstn (length ts - 1) ts').
Proof.
  intros fs ts base n name t NE TO RN F SB ts' RD. unfold read_targets in RD. rewrite RN in RD. cbn [bind] in RD. rewrite F in RD.
  assert (NP : (0 < length ts)%nat) by (destruct ts; [contradiction|cbn; lia]). set (num := Z.of_nat (length ts)) in *.
  assert (FT : targets_text ts num = file_of (print_int num :: map target_row ts)).
  { unfold targets_text, file_of. cbn [flat_map]. f_equal. clear. induction ts as [|x ts IH]; [reflexivity|]. cbn [flat_map map]. now rewrite IH. }
  rewrite FT in SB. assert (NL : Forall noline (print_int num :: map target_row ts)) by (constructor; [apply pi_noline|apply map_noline, row_noline]).
  destruct (newlines t) as [|j] eqn:J.
  - exfalso. destruct SB as (s & E). unfold file_of in E. cbn [flat_map] in E. unfold line at 1 in E. rewrite <- app_assoc in E. cbn [app] in E. apply cut in E.
    assert (ST : starts t (print_int num)).
    { destruct E as [(u & E & _)|(u & -> & E & U)]; [exists u; exact E|]. exfalso. destruct u as [|c u]; [contradiction|]. injection E as <- _. rewrite newlines_app in J. unfold newlines in J at 2. cbn [filter] in J. destruct (aeqb_spec nl nl); [cbn [length] in J; lia|contradiction]. }
    destruct (begin_number num t ltac:(lia) ST) as [->|(W & m & P & M)]; [cbn in RD; discriminate|].
    rewrite lines_last in RD by (apply W || apply nl_word, W). cbn [readline] in RD. rewrite strip_nospace, P in RD by apply W. cbn [bind] in RD. apply rows_count in RD. cbn [length] in RD. lia.
  - destruct (begin_lines _ NL t (S j) SB ltac:(lia)) as (rest & LS & BL). cbn [length] in BL. rewrite map_length in BL. pose proof (lines_few t) as LF. rewrite J, LS, app_length, firstn_length in LF. cbn [length] in LF. rewrite map_length in LF.
    rewrite LS in RD. cbn [firstn app readline] in RD. rewrite strip_nospace, parse_print_int in RD by apply print_int_word. cbn [bind] in RD. unfold num in RD. rewrite Nat2Z.id in RD.
    pose proof (rows_count _ _ _ RD) as (LT & LR). rewrite app_length, firstn_length, map_length in LR. split; [exact LT|].
    assert (TJ : Forall target_ok (firstn j ts)) by (rewrite <- (firstn_skipn j ts) in TO; now apply Forall_app in TO).
    rewrite firstn_map in RD. destruct (rows_first _ _ TJ _ _ RD) as (out & ->); [rewrite firstn_length; lia|].
    set (k := (length ts - 1)%nat). assert (KJ : (k <= j)%nat) by (unfold k; lia). rewrite firstn_app, firstn_map, firstn_firstn, map_length, firstn_length, (Nat.min_l k j) by lia.
    replace (k - Nat.min j (length ts))%nat with 0%nat by (unfold k; lia). cbn [firstn]. rewrite app_nil_r.
    assert (TK : Forall target_ok (firstn k ts)) by (rewrite <- (firstn_skipn k ts) in TO; now apply Forall_app in TO).
    clear - TK. induction TK as [|x l X TK IH]; cbn [map]; constructor; [now apply back_same|exact IH].
Qed.
Print Assumptions C90_targets.
(** two targets; the end of the last number is missing: the second target belongs to particle 1 instead of 12 *)
Definition targets90 : list target := [plain_target; mk_target 1 (t_x plain_target) (t_y plain_target) 9 3 3 1000 12].
Definition cut90 : text := firstn (length (targets_text targets90 2) - 2) (targets_text targets90 2).
Theorem C90_targets_refuted : targets90 <> [] /\ Forall target_ok targets90 /\ starts cut90 (targets_text targets90 2) /\ read_name (txt "cam.%05d") 7 = Ok (txt "cam.00007_targets") /\
  match read_targets (put none90 (txt "cam.00007_targets") cut90) (txt "cam.%05d") 7 with Ok ts => map t_tnr ts = [-1; 1] | Exn _ => False end.
Proof.
  split; [discriminate|]. destruct C28_example as (T & R & _). split.
  { constructor; [exact T|]. constructor; [|constructor]. destruct T as (_ & T1 & T2 & T3 & T4 & T5 & T6 & T7). unfold target_ok. cbn [t_pnr t_n t_nx t_ny t_sumg t_tnr t_x t_y].
    assert (K : forall z, Z.abs z <= 9999 -> exact_int z) by (intros z Hz; unfold exact_int; assert (9999 < 2 ^ 53) by reflexivity; lia). repeat (split; [first [assumption|apply K; lia]|]). exact T7. }
  split; [exists (skipn (length (targets_text targets90 2) - 2) (targets_text targets90 2)); unfold cut90; now rewrite firstn_skipn|]. split; [exact R|vm_compute; reflexivity].
Qed.
Print Assumptions C90_targets_refuted.
