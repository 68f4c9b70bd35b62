(** Crashes while a frame is written. *)
From Coq Require Import Reals Psatz.
From Verif Require Import F64 F64R Model_text Proof_text Proof_text2 Model_corr Model_track Model_io Spec_io Proof_io Proof_io2 Proof_io3 Model_crash Spec_crash Lib Base.
Local Open Scope Z_scope.

Lemma run_app a b fs : run_ops (a ++ b) fs = run_ops b (run_ops a fs).
Proof. apply fold_left_app. Qed.
Lemma starts_refl a : starts a a. Proof. exists []. now rewrite app_nil_r. Qed.
Lemma starts_trans a b c : starts a b -> starts b c -> starts a c.
Proof. intros (s & ->) (u & ->). exists (s ++ u). now rewrite app_assoc. Qed.
(** a file that is not opened again only grows *)
Lemma run_grows ops m : ~ opened m ops -> forall fs c, fs m = Some c -> exists c', run_ops ops fs m = Some c' /\ starts c c'.
Proof.
  induction ops as [|o ops IH]; intros N fs c F; [exists c; split; [exact F|apply starts_refl]|]. cbn [run_ops fold_left]. fold (run_ops ops).
  assert (N' : ~ opened m ops) by (intros I; apply N; now right).
  assert (exists c1, do_op fs o m = Some c1 /\ starts c c1) as (c1 & E1 & S1).
  { destruct o as [x|x t]; cbn [do_op].
    - rewrite put_neq; [exists c; split; [exact F|apply starts_refl]|]. intros ->. apply N. now left.
    - destruct (teqb_spec m x) as [->|D]; [rewrite put_eq, F; exists (c ++ t); split; [reflexivity|now exists t]|rewrite put_neq by exact D; exists c; split; [exact F|apply starts_refl]]. }
  destruct (IH N' (do_op fs o) c1 E1) as (c' & E' & S'). exists c'. split; [exact E'|now apply starts_trans with c1].
Qed.
Lemma run_exists ops m : opened m ops -> forall fs, exists c, run_ops ops fs m = Some c.
Proof.
  intros (a & b & ->)%in_split fs. rewrite run_app. cbn [run_ops fold_left do_op]. fold (run_ops b).
  assert (K : forall l f, (exists c, f m = Some c) -> exists c, run_ops l f m = Some c).
  { induction l as [|o l IH]; intros f H; [exact H|]. cbn [run_ops fold_left]. fold (run_ops l). apply IH. destruct H as (c & H). destruct o as [x|x t]; cbn [do_op]; destruct (teqb_spec m x) as [->|D]; rewrite ?put_eq, ?put_neq by assumption; eauto. }
  apply K. rewrite put_eq. eauto.
Qed.

(** the operations amount to the model of the whole function *)
Lemma row_ops_run cn ln pn cor path rows : cn <> ln -> pn <> cn -> pn <> ln -> forall fs lt ct pt, fs ln = Some lt -> fs cn = Some ct -> fs pn = Some pt ->
  let '((lt', ct', pt'), e) := write_rows rows cor path true (lt, ct, pt) in let '(ops, e') := row_ops cn ln pn rows cor path in
  e' = e /\ run_ops ops fs ln = Some lt' /\ run_ops ops fs cn = Some ct' /\ run_ops ops fs pn = Some pt' /\
  forall m, m <> cn -> m <> ln -> m <> pn -> run_ops ops fs m = fs m.
Proof.
  intros D1 D2 D3. induction rows as [|i rows IH]; intros fs lt ct pt L C P; cbn [write_rows row_ops]; [auto 8|].
  destruct (do p <- pyget path i; link_row p) as [r1|]; [|cbn; auto 8].
  set (f1 := do_op fs (Write ln (line r1))). assert (L1 : f1 ln = Some (lt ++ line r1)) by (unfold f1; cbn [do_op]; now rewrite put_eq, L).
  assert (C1 : f1 cn = Some ct) by (unfold f1; cbn [do_op]; now rewrite put_neq). assert (P1 : f1 pn = Some pt) by (unfold f1; cbn [do_op]; now rewrite put_neq).
  assert (O1 : forall m, m <> ln -> f1 m = fs m) by (intros m M; unfold f1; cbn [do_op]; now rewrite put_neq).
  destruct (do p <- pyget path i; do c <- pyget cor i; corr_row i p c) as [r2|]; [|cbn [run_ops fold_left]; fold f1; auto 8].
  set (f2 := do_op f1 (Write cn (line r2))). assert (C2 : f2 cn = Some (ct ++ line r2)) by (unfold f2; cbn [do_op]; now rewrite put_eq, C1).
  assert (L2 : f2 ln = Some (lt ++ line r1)) by (unfold f2; cbn [do_op]; now rewrite put_neq by congruence). assert (P2 : f2 pn = Some pt) by (unfold f2; cbn [do_op]; now rewrite put_neq).
  assert (O2 : forall m, m <> cn -> m <> ln -> f2 m = fs m) by (intros m M1 M2; unfold f2; cbn [do_op]; rewrite put_neq by exact M1; now apply O1).
  destruct (do p <- pyget path i; prio_row p) as [r3|]; [|cbn [run_ops fold_left]; fold f1; fold f2; auto 8].
  set (f3 := do_op f2 (Write pn (line r3))). assert (P3 : f3 pn = Some (pt ++ line r3)) by (unfold f3; cbn [do_op]; now rewrite put_eq, P2).
  assert (L3 : f3 ln = Some (lt ++ line r1)) by (unfold f3; cbn [do_op]; now rewrite put_neq by congruence). assert (C3 : f3 cn = Some (ct ++ line r2)) by (unfold f3; cbn [do_op]; now rewrite put_neq by congruence).
  assert (O3 : forall m, m <> cn -> m <> ln -> m <> pn -> f3 m = fs m) by (intros m M1 M2 M3; unfold f3; cbn [do_op]; rewrite put_neq by exact M3; now apply O2).
  specialize (IH f3 _ _ _ L3 C3 P3). destruct (write_rows rows cor path true _) as [[[lt' ct'] pt'] e]. destruct (row_ops cn ln pn rows cor path) as [ops e'].
  cbn [run_ops fold_left]. fold f1. fold f2. fold f3. fold (run_ops ops). destruct IH as (E & A & B & C' & O). repeat (split; [assumption|]).
  intros m M1 M2 M3. rewrite O by assumption. now apply O3.
Qed.
Lemma ops_run can_write fs cor path num cb lb pb n : bases_ok can_write cb lb pb n ->
  let '(fs', r) := write_path_frame can_write fs cor path num cb lb (Some pb) n in let '(ops, e) := path_ops cor path num cb lb pb n in
  r = match e with Some e => Exn e | None => Ok true end /\ forall m, run_ops ops fs m = fs' m.
Proof.
  intros (LN & PN & D & PC & PL & W1 & W2 & W3). unfold write_path_frame, path_ops, opt_name. rewrite W1, W2. cbn [negb]. destruct pb as [|c pb]; [contradiction|]. rewrite W3. cbn [negb andb].
  set (cn := frame_name cb n). set (ln := frame_name lb n). set (pn := frame_name (c :: pb) n). set (h := line (print_int num)).
  assert (D1 : cn <> ln) by (intros E; apply frame_name_inj in E; congruence). assert (D2 : pn <> cn) by (intros E; apply frame_name_inj in E; congruence). assert (D3 : pn <> ln) by (intros E; apply frame_name_inj in E; congruence).
  set (f := run_ops [Open cn; Write cn h; Open ln; Write ln h; Open pn; Write pn h] fs).
  assert (F : f cn = Some h /\ f ln = Some h /\ f pn = Some h /\ forall m, m <> cn -> m <> ln -> m <> pn -> f m = fs m).
  { unfold f. cbn [run_ops fold_left do_op]. repeat (rewrite ?put_eq; try (rewrite put_neq by congruence)). cbn [app]. repeat split.
    intros m M1 M2 M3. repeat (rewrite put_neq by congruence). reflexivity. }
  destruct F as (FC & FL & FP & FO). pose proof (row_ops_run cn ln pn cor path (zrange 0 num) D1 D2 D3 f h h h FL FC FP) as R.
  destruct (write_rows _ _ _ _ _) as [[[lt ct] pt] e]. destruct (row_ops cn ln pn _ cor path) as [ops e']. destruct R as (-> & A & B & C & O). split; [reflexivity|].
  intros m. change (run_ops (?a ++ ops) fs) with (run_ops (a ++ ops) fs). rewrite run_app. fold f.
  destruct (teqb_spec m pn) as [->|M3]; [rewrite C, put_eq; reflexivity|]. rewrite (put_neq _ pn) by exact M3.
  destruct (teqb_spec m ln) as [->|M2]; [rewrite A, put_eq; reflexivity|]. rewrite (put_neq _ ln) by exact M2.
  destruct (teqb_spec m cn) as [->|M1]; [rewrite B, put_eq; reflexivity|]. rewrite !put_neq by assumption. rewrite O by assumption. now apply FO.
Qed.
Lemma row_ops_noopen cn ln pn cor path rows m : ~ opened m (fst (row_ops cn ln pn rows cor path)).
Proof.
  induction rows as [|i rows IH]; cbn [row_ops fst]; [intros []|]. destruct (do p <- pyget path i; link_row p); [|intros []].
  destruct (do p <- pyget path i; do c <- pyget cor i; corr_row i p c); [|intros [H|[]]; discriminate]. destruct (do p <- pyget path i; prio_row p); [|intros [H|[H|[]]]; discriminate].
  destruct (row_ops cn ln pn rows cor path) as [ops e]. cbn [fst] in *. intros [H|[H|[H|H]]]; try discriminate. now apply IH.
Qed.

(** ---- beginnings of files ---- *)
Lemma newlines_app a b : newlines (a ++ b) = (newlines a + newlines b)%nat.
Proof. unfold newlines. now rewrite filter_app, app_length. Qed.
Lemma newlines_none a : noline a -> newlines a = 0%nat.
Proof. intros H. unfold newlines. induction H as [|c a C H IH]; [reflexivity|]. cbn [filter]. rewrite aeqb_neq by exact C. exact IH. Qed.
Lemma newlines_line a : noline a -> newlines (line a) = 1%nat.
Proof. intros H. unfold line. rewrite newlines_app, newlines_none by exact H. reflexivity. Qed.
Lemma newlines_starts a b : starts a b -> (newlines a <= newlines b)%nat.
Proof. intros (s & ->). rewrite newlines_app. lia. Qed.
(** two ways to cut the same text *)
Lemma cut {A} (a b s t : list A) : a ++ b = s ++ t -> (exists u, a = s ++ u /\ t = u ++ b) \/ (exists u, s = a ++ u /\ b = u ++ t /\ u <> []).
Proof.
  revert s. induction a as [|x a IH]; intros [|y s] E; cbn [app] in E.
  - left. exists []. auto.
  - right. exists (y :: s). repeat split; [exact E|discriminate].
  - left. exists (x :: a). auto.
  - injection E as -> E. destruct (IH s E) as [(u & -> & ->)|(u & -> & -> & U)]; [left|right]; exists u; auto.
Qed.
Lemma noline_sub a b : noline (a ++ b) -> noline a.
Proof. unfold noline. now rewrite Forall_app. Qed.
Lemma begin_lines ls : Forall noline ls -> forall t k, starts t (file_of ls) -> (k <= newlines t)%nat -> exists rest, lines t = firstn k ls ++ rest /\ (k <= length ls)%nat.
Proof.
  intros H. induction H as [|a ls Ha H IH]; intros t k (s & E) K.
  - symmetry in E. cbn [file_of flat_map] in E. apply app_eq_nil in E. destruct E as (-> & _). cbn in K. assert (k = 0%nat) as -> by lia. exists (lines []). auto.
  - destruct k as [|k]; [exists (lines t); split; [reflexivity|lia]|]. unfold file_of in E. cbn [flat_map] in E. unfold line at 1 in E. rewrite <- app_assoc in E. cbn [app] in E.
    change (a ++ nl :: flat_map line ls = t ++ s) in E. apply cut in E. destruct E as [(u & -> & ->)|(u & -> & E & U)].
    + exfalso. apply noline_sub in Ha. rewrite newlines_none in K by exact Ha. lia.
    + destruct u as [|c u]; [contradiction|]. cbn [app] in E. injection E as <- E. rewrite lines_line by exact Ha.
      rewrite newlines_app, newlines_none in K by exact Ha. unfold newlines in K. cbn [filter] in K. destruct (aeqb_spec nl nl); [|contradiction]. cbn [length] in K. fold (newlines u) in K.
      destruct (IH u k) as (rest & R & L); [exists s; exact E|lia|]. exists rest. cbn [firstn app length]. rewrite R. split; [reflexivity|lia].
Qed.

(** ---- reading ---- *)
Lemma rows_length ls i n lk pk c p : read_path_rows ls i n lk pk = Ok (c, p) -> length c = (n - i)%nat /\ length p = (n - i)%nat.
Proof.
  revert i lk pk c p. induction ls as [|l ls IH]; intros i lk pk c p E; cbn [read_path_rows] in E.
  - injection E as <- <-. now rewrite !repeat_length.
  - destruct (Nat.leb_spec n i); [discriminate|]. apply bind_ok in E. destruct E as ([[pv nx] lk'] & _ & E). apply bind_ok in E. destruct E as ([pr pk'] & _ & E). apply bind_ok in E. destruct E as (q & _ & E).
    apply bind_ok in E. destruct E as ([c' p'] & R & E). injection E as <- <-. apply IH in R. cbn [length]. lia.
Qed.
Lemma rows_begin rl el ep suf : Forall (fun x => path_ok (fst x) /\ corres_ok (snd x)) suf -> forall i n c p,
  read_path_rows (crows (Z.of_nat i) suf ++ rl) i n (Some (map (fun x => ltxt (fst x)) suf ++ el)) (Some (map (fun x => ptxt (fst x)) suf ++ ep)) = Ok (c, p) ->
  exists c' p', c = map Some (back_corr (Z.of_nat i) (map snd suf)) ++ c' /\ p = map (back_path true true) (map fst suf) ++ p'.
Proof.
  intros H. induction H as [|[q d] suf [P C] H IH]; intros i n c p E; [exists c, p; auto|].
  cbn [fst snd] in P, C. cbn [crows map fst snd app] in *. unfold read_path_rows in E; fold read_path_rows in E.
  destruct (Nat.leb_spec n i) as [L|L]; [discriminate|].
  pose proof P as (_ & _ & I1 & I2 & I3). pose proof C as (_ & CI). rewrite (p4 d C) in CI.
  assert (J : int32 (q0 d) /\ int32 (q1 d) /\ int32 (q2 d) /\ int32 (q3 d)) by (repeat match goal with h : Forall _ (_ :: _) |- _ => inversion h; clear h; subst end; auto).
  destruct J as (J0 & J1 & J2 & J3). cbn [readline] in E. rewrite from_ltxt, from_ptxt, from_ctxt in E.
  change (pyget [fint (pr_prev q); fint (pr_next q); read_back 3 (x0 q); read_back 3 (x1 q); read_back 3 (x2 q)] 0) with (Ok (fint (pr_prev q))) in E.
  change (pyget [fint (pr_prev q); fint (pr_next q); read_back 3 (x0 q); read_back 3 (x1 q); read_back 3 (x2 q)] 1) with (Ok (fint (pr_next q))) in E.
  change (pyget [fint (pr_prev q); fint (pr_next q); read_back 3 (x0 q); read_back 3 (x1 q); read_back 3 (x2 q); fint (pr_prio q)] (-1)) with (Ok (fint (pr_prio q))) in E.
  cbn [bind] in E. unfold last4, mid in E. cbn [length Nat.sub skipn firstn map assign4] in E. rewrite !as_int_fint, !wrap32_id in E by (assumption || now apply int32_exact). cbn [bind] in E.
  replace (Z.of_nat i + 1) with (Z.of_nat (S i)) in E by lia. apply bind_ok in E. destruct E as ([c' p'] & R & E). injection E as <- <-. destruct (IH (S i) n c' p' R) as (c'' & p'' & -> & ->).
  exists c'', p''. cbn [back_corr map app]. rewrite (p4 d C). unfold back_path at 2. rewrite (x3 q P). cbn [map]. replace (Z.of_nat i + 1) with (Z.of_nat (S i)) by lia. split; reflexivity.
Qed.
