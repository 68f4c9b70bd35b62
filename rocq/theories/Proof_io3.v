(** Round trip of path files and of whole frames. *)
From Coq Require Import Reals Psatz.
From Verif Require Import F64 F64R Model_text Proof_text Proof_text2 Model_corr Model_track Model_io Spec_io Proof_io Proof_io2 Lib Base.
Local Open Scope Z_scope.

Lemma frame_name_inj a b n : frame_name a n = frame_name b n -> a = b.
Proof. unfold frame_name. apply app_inv_tail. Qed.

Definition ctext (cor : list corres) (path : list path_rec) : text := file_of (print_int (Z.of_nat (length path)) :: crows 0 (combine path cor)).
Definition ltext (path : list path_rec) : text := file_of (print_int (Z.of_nat (length path)) :: map ltxt path).
Definition ptext (path : list path_rec) : text := file_of (print_int (Z.of_nat (length path)) :: map ptxt path).

Lemma combine_fst {A B} (l : list A) (m : list B) : length l = length m -> map fst (combine l m) = l.
Proof. revert m. induction l as [|a l IH]; intros [|b m] H; try discriminate; [reflexivity|]. cbn. f_equal. apply IH. now injection H. Qed.
Lemma combine_snd {A B} (l : list A) (m : list B) : length l = length m -> map snd (combine l m) = m.
Proof. revert m. induction l as [|a l IH]; intros [|b m] H; try discriminate; [reflexivity|]. cbn. f_equal. apply IH. now injection H. Qed.
Lemma combine_ok path cor : length path = length cor -> Forall path_ok path -> Forall corres_ok cor -> Forall (fun x => path_ok (fst x) /\ corres_ok (snd x)) (combine path cor).
Proof.
  intros L P. revert cor L. induction P as [|p path P HP IH]; intros [|c cor] L C; try discriminate; [constructor|]. inversion C; subst. cbn. constructor; [now split|]. apply IH; auto.
Qed.

(** the files after a successful write *)
Lemma write_path_spec can_write fs cor path cb lb pb n :
  length path = length cor -> Forall path_ok path -> Forall corres_ok cor -> cb <> lb ->
  can_write (frame_name cb n) = true -> can_write (frame_name lb n) = true ->
  match pb with None => True | Some p => p <> [] /\ p <> cb /\ p <> lb /\ can_write (frame_name p n) = true end ->
  let '(fs', r) := write_path_frame can_write fs cor path (Z.of_nat (length path)) cb lb pb n in
  r = Ok true /\ fs' (frame_name cb n) = Some (ctext cor path) /\ fs' (frame_name lb n) = Some (ltext path) /\
  (forall p, pb = Some p -> fs' (frame_name p n) = Some (ptext path)) /\
  (forall m, m <> frame_name cb n -> m <> frame_name lb n -> (forall p, pb = Some p -> m <> frame_name p n) -> fs' m = fs m).
Proof.
  intros L HP HC D W1 W2 WP. unfold write_path_frame. rewrite W1, W2. cbn [negb].
  assert (N1 : frame_name cb n <> frame_name lb n) by (intros E; apply frame_name_inj in E; contradiction).
  assert (W : forall wp h, write_rows (zrange 0 (Z.of_nat (length path))) cor path wp (h, h, h) =
    ((h ++ file_of (map ltxt path), h ++ file_of (crows 0 (combine path cor)), if wp then h ++ file_of (map ptxt path) else h), None)).
  { intros wp h. pose proof (write_rows_ok wp (combine path cor) [] h h h (combine_ok path cor L HP HC)) as H. cbn [length app] in H.
    rewrite <- (map_map fst ltxt), <- (map_map fst ptxt) in H. rewrite combine_fst, combine_snd in H by assumption.
    rewrite combine_length, <- L, Nat.min_id in H. exact H. }
  destruct pb as [p|].
  - destruct WP as (P0 & P1 & P2 & P3). destruct p as [|c p]; [contradiction|]. unfold opt_name. rewrite P3. cbn [negb andb]. rewrite W.
    assert (N2 : frame_name cb n <> frame_name (c :: p) n) by (intros E; apply frame_name_inj in E; congruence).
    assert (N3 : frame_name lb n <> frame_name (c :: p) n) by (intros E; apply frame_name_inj in E; congruence).
    split; [reflexivity|]. split; [|split; [|split]].
    + rewrite put_neq, put_neq, put_eq by assumption. reflexivity.
    + rewrite put_neq, put_eq by assumption. reflexivity.
    + intros p' [= <-]. rewrite put_eq. reflexivity.
    + intros m M1 M2 M3. specialize (M3 _ eq_refl). rewrite !put_neq by assumption. reflexivity.
  - cbn [andb]. rewrite W. split; [reflexivity|]. split; [|split; [|split]].
    + rewrite put_neq, put_eq by assumption. reflexivity.
    + rewrite put_eq. reflexivity.
    + intros p' [=].
    + intros m M1 M2 _. rewrite !put_neq by assumption. reflexivity.
Qed.

Lemma lines_file ls : Forall noline ls -> lines (file_of ls) = ls.
Proof. apply lines_flat. Qed.
Lemma pi_noline z : noline (print_int z). Proof. apply nl_word, print_int_word. Qed.
Lemma crows_noline l i : Forall noline (crows i l).
Proof. revert i. induction l as [|[p c] l IH]; intros i; cbn [crows]; constructor; [apply ctxt_noline|apply IH]. Qed.
Lemma map_noline {A} (f : A -> text) l : (forall a, noline (f a)) -> Forall noline (map f l).
Proof. intros H. apply Forall_forall. intros t I. apply in_map_iff in I as (a & <- & _). apply H. Qed.

Lemma read_path_spec fs cor path cb lb pb n (lk pk : bool) :
  length path = length cor -> Forall path_ok path -> Forall corres_ok cor ->
  fs (frame_name cb n) = Some (ctext cor path) ->
  (lk = true -> lb <> [] /\ fs (frame_name lb n) = Some (ltext path)) ->
  (pk = true -> pb <> [] /\ fs (frame_name pb n) = Some (ptext path)) ->
  read_path_frame fs cb (if lk then lb else []) (Some (if pk then pb else [])) n =
    Ok (map Some (back_corr 0 cor), map (back_path lk pk) path).
Proof.
  intros L HP HC F1 F2 F3. unfold read_path_frame. rewrite F1. unfold ctext. rewrite lines_file by (constructor; [apply pi_noline|apply crows_noline]). cbn [readline].
  rewrite parse_print_int. cbn [bind]. destruct (Z.ltb_spec (Z.of_nat (length path)) 0) as [|_]; [lia|].
  pose proof (read_rows_ok lk pk (combine path cor) 0 (length path) (combine_ok path cor L HP HC)) as H. rewrite combine_length, <- L, Nat.min_id in H. specialize (H eq_refl).
  rewrite combine_fst, combine_snd in H by assumption. rewrite <- (map_map fst ltxt), <- (map_map fst ptxt) in H. rewrite combine_fst in H by assumption.
  rewrite Nat2Z.id.
  assert (X1 : lines (ltext path) = print_int (Z.of_nat (length path)) :: map ltxt path) by (apply lines_file; constructor; [apply pi_noline|apply map_noline, ltxt_noline]).
  assert (X2 : lines (ptext path) = print_int (Z.of_nat (length path)) :: map ptxt path) by (apply lines_file; constructor; [apply pi_noline|apply map_noline, ptxt_noline]).
  destruct lk.
  - destruct (F2 eq_refl) as (B & E). destruct lb as [|c lb]; [contradiction|]. rewrite E. cbn [option_map]. rewrite X1. cbn [readline snd]. destruct pk.
    + destruct (F3 eq_refl) as (B' & E'). destruct pb as [|c' pb]; [contradiction|]. unfold opt_name. rewrite E'. cbn [option_map]. rewrite X2. exact H.
    + exact H.
  - destruct pk.
    + destruct (F3 eq_refl) as (B' & E'). destruct pb as [|c' pb]; [contradiction|]. unfold opt_name. rewrite E'. cbn [option_map]. rewrite X2. exact H.
    + exact H.
Qed.

Lemma back_path_same lk pk p : path_ok p -> lk = true -> pk = true -> same_path 3 p (back_path lk pk p).
Proof.
  intros (_ & F & _) -> ->. unfold same_path. cbn [pr_x pr_prev pr_next pr_prio pr_inlist pr_final back_path]. split; [|repeat (split; [reflexivity|]); reflexivity].
  induction F as [|x l X F IH]; cbn [map]; constructor; [now apply back_digits|exact IH].
Qed.
Lemma back_corr_same cs i : map co_p (back_corr i cs) = map co_p cs.
Proof. revert i. induction cs as [|c cs IH]; intros i; [reflexivity|]. cbn. now rewrite IH. Qed.
Lemma back_corr_nr cs i k d : nth_error (back_corr i cs) k = Some d -> co_nr d = i + Z.of_nat k + 1.
Proof.
  revert i k. induction cs as [|c cs IH]; intros i [|k] H; try discriminate; cbn in H.
  - injection H as <-. cbn. lia.
  - apply IH in H. lia.
Qed.
Lemma back_corr_length cs i : length (back_corr i cs) = length cs.
Proof. revert i. induction cs as [|c cs IH]; intros i; [reflexivity|]. cbn. now rewrite IH. Qed.
Lemma back_corr_ok cs i : Forall corres_ok cs -> Forall corres_ok (back_corr i cs).
Proof. intros H. revert i. induction H as [|c cs C H IH]; intros i; cbn; constructor; [exact C|apply IH]. Qed.
Lemma back_path_ok lk pk p : path_ok p -> path_ok (back_path lk pk p).
Proof.
  intros (L & F & I1 & I2 & I3). unfold path_ok, back_path. cbn [pr_x pr_prev pr_next pr_prio]. rewrite map_length. split; [assumption|]. split.
  - apply Forall_map. eapply Forall_impl; [|exact F]. intros x X. now apply back_ok.
  - assert (K : forall z, Z.abs z <= 9 -> exact_int z) by (intros z Hz; unfold exact_int; assert (9 < 2 ^ 53) by reflexivity; lia).
    repeat split; [destruct lk; [assumption|apply K; cbn; lia]|destruct lk; [assumption|apply K; cbn; lia]|destruct pk; [assumption|apply K; cbn; lia]].
Qed.
(** rewriting gives the same text *)
Lemma x_back lk pk p : path_ok p -> x0 (back_path lk pk p) = read_back 3 (x0 p) /\ x1 (back_path lk pk p) = read_back 3 (x1 p) /\ x2 (back_path lk pk p) = read_back 3 (x2 p).
Proof. intros H. pose proof (x3 p H) as E. unfold x0, x1, x2, back_path in *. cbn [pr_x]. rewrite E. repeat split. Qed.
Lemma x_stable p : path_ok p -> print_fixed 3 (read_back 3 (x0 p)) = print_fixed 3 (x0 p) /\ print_fixed 3 (read_back 3 (x1 p)) = print_fixed 3 (x1 p) /\ print_fixed 3 (read_back 3 (x2 p)) = print_fixed 3 (x2 p).
Proof.
  intros H. pose proof (x3 p H) as E. destruct H as (_ & F & _). rewrite E in F. inversion F as [|? ? F0 F']; inversion F' as [|? ? F1 F'']; inversion F'' as [|? ? F2 _]; subst.
  repeat split; apply print_stable; assumption.
Qed.
Lemma ltxt_back p : path_ok p -> ltxt (back_path true true p) = ltxt p.
Proof. intros H. destruct (x_back true true p H) as (A & B & C). destruct (x_stable p H) as (A' & B' & C'). unfold ltxt. rewrite A, B, C, A', B', C'. reflexivity. Qed.
Lemma ptxt_back p : path_ok p -> ptxt (back_path true true p) = ptxt p.
Proof. intros H. unfold ptxt. now rewrite ltxt_back. Qed.
Lemma ctxt_back i lk pk p c k : path_ok p -> ctxt i (back_path lk pk p) (mk_corres k (co_p c)) = ctxt i p c.
Proof. intros H. destruct (x_back lk pk p H) as (A & B & C). destruct (x_stable p H) as (A' & B' & C'). unfold ctxt. rewrite A, B, C, A', B', C'. reflexivity. Qed.
Lemma crows_back lk pk i j path cor : Forall path_ok path -> crows i (combine (map (back_path lk pk) path) (back_corr j cor)) = crows i (combine path cor).
Proof.
  intros H. revert i j cor. induction H as [|p path P H IH]; intros i j [|c cor]; [reflexivity|reflexivity|reflexivity|]. cbn [map back_corr combine crows]. rewrite ctxt_back by assumption. now rewrite IH.
Qed.
Lemma texts_back path cor : Forall path_ok path ->
  ctext (back_corr 0 cor) (map (back_path true true) path) = ctext cor path /\ ltext (map (back_path true true) path) = ltext path /\ ptext (map (back_path true true) path) = ptext path.
Proof.
  intros H. unfold ctext, ltext, ptext. rewrite map_length, crows_back by assumption. rewrite !map_map.
  split; [reflexivity|]. split; do 2 f_equal; apply map_ext_in; intros p I; rewrite Forall_forall in H; [apply ltxt_back|apply ptxt_back]; now apply H.
Qed.

Definition bases_ok (can_write : text -> bool) (cb lb pb : text) (n : Z) : Prop :=
  lb <> [] /\ pb <> [] /\ cb <> lb /\ pb <> cb /\ pb <> lb /\
  can_write (frame_name cb n) = true /\ can_write (frame_name lb n) = true /\ can_write (frame_name pb n) = true.

Theorem path_round_trip can_write fs cor path cb lb pb n :
  bases_ok can_write cb lb pb n -> length path = length cor -> Forall path_ok path -> Forall corres_ok cor ->
  let '(fs', r) := write_path_frame can_write fs cor path (Z.of_nat (length path)) cb lb (Some pb) n in
  r = Ok true /\ (forall m, m <> frame_name cb n -> m <> frame_name lb n -> m <> frame_name pb n -> fs' m = fs m) /\
  exists cor' path', read_path_frame fs' cb lb (Some pb) n = Ok (map Some cor', path') /\ same_corres cor cor' /\ Forall2 (same_path 3) path path' /\
    let '(fs'', r'') := write_path_frame can_write fs' cor' path' (Z.of_nat (length path')) cb lb (Some pb) n in r'' = Ok true /\ forall m, fs'' m = fs' m.
Proof.
  intros (B1 & B2 & B3 & B4 & B5 & W1 & W2 & W3) L HP HC.
  pose proof (write_path_spec can_write fs cor path cb lb (Some pb) n L HP HC B3 W1 W2 (conj B2 (conj B4 (conj B5 W3)))) as H.
  destruct (write_path_frame can_write fs cor path _ cb lb (Some pb) n) as [fs' r]. destruct H as (R & C & LT & PT & O). split; [exact R|].
  split; [intros m M1 M2 M3; apply O; try assumption; intros p [= <-]; assumption|].
  exists (back_corr 0 cor), (map (back_path true true) path). split; [|split; [|split]].
  - exact (read_path_spec fs' cor path cb lb pb n true true L HP HC C (fun _ => conj B1 LT) (fun _ => conj B2 (PT _ eq_refl))).
  - split; [apply back_corr_same|]. intros i d I. apply back_corr_nr in I. lia.
  - clear - HP. induction HP as [|p path P HP IH]; cbn; constructor; [|exact IH]. now apply back_path_same.
  - assert (L2 : length (map (back_path true true) path) = length (back_corr 0 cor)) by (rewrite map_length, back_corr_length; assumption).
    assert (HP2 : Forall path_ok (map (back_path true true) path)). { apply Forall_forall. intros p I. apply in_map_iff in I as (q & <- & I). apply back_path_ok. rewrite Forall_forall in HP. now apply HP. }
    pose proof (write_path_spec can_write fs' (back_corr 0 cor) (map (back_path true true) path) cb lb (Some pb) n L2 HP2 (back_corr_ok _ _ HC) B3 W1 W2 (conj B2 (conj B4 (conj B5 W3)))) as H.
    destruct (write_path_frame can_write fs' _ _ _ cb lb (Some pb) n) as [fs'' r'']. destruct H as (R' & C' & LT' & PT' & O'). split; [exact R'|].
    destruct (texts_back path cor HP) as (T1 & T2 & T3). specialize (PT _ eq_refl). specialize (PT' _ eq_refl). rewrite T1 in C'. rewrite T2 in LT'. rewrite T3 in PT'.
    intros m. destruct (teqb_spec m (frame_name cb n)) as [->|M1]; [congruence|]. destruct (teqb_spec m (frame_name lb n)) as [->|M2]; [congruence|].
    destruct (teqb_spec m (frame_name pb n)) as [->|M3]; [congruence|]. apply O'; try assumption. intros p [= <-]. assumption.
Qed.
(** as it is read at the beginning of tracking: without linkage and priority files *)
Theorem path_read_fresh can_write fs cor path cb lb pb n :
  bases_ok can_write cb lb pb n -> length path = length cor -> Forall path_ok path -> Forall corres_ok cor ->
  let '(fs', r) := write_path_frame can_write fs cor path (Z.of_nat (length path)) cb lb (Some pb) n in
  exists cor' path', read_path_frame fs' cb [] (Some []) n = Ok (map Some cor', path') /\ same_corres cor cor' /\
    Forall2 (fun p q => Forall2 (to_digits 3) (pr_x p) (pr_x q) /\ pr_prev q = PREV_NONE /\ pr_next q = NEXT_NONE /\ pr_prio q = 4 /\ pr_inlist q = 0) path path'.
Proof.
  intros (B1 & B2 & B3 & B4 & B5 & W1 & W2 & W3) L HP HC.
  pose proof (write_path_spec can_write fs cor path cb lb (Some pb) n L HP HC B3 W1 W2 (conj B2 (conj B4 (conj B5 W3)))) as H.
  destruct (write_path_frame can_write fs cor path _ cb lb (Some pb) n) as [fs' r]. destruct H as (R & C & LT & PT & O).
  exists (back_corr 0 cor), (map (back_path false false) path). split; [|split].
  - apply (read_path_spec fs' cor path cb [] [] n false false L HP HC C); discriminate.
  - split; [apply back_corr_same|]. intros i d I. apply back_corr_nr in I. lia.
  - clear - HP. induction HP as [|p path P HP IH]; cbn; constructor; [|exact IH]. cbn [pr_x pr_prev pr_next pr_prio pr_inlist back_path]. split; [|repeat (split; [reflexivity|]); reflexivity].
    destruct P as (_ & F & _). clear - F. induction F as [|x l X F IH]; cbn [map]; constructor; [now apply back_digits|exact IH].
Qed.
