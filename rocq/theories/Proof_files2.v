(** What is read and written depends on the files of the frame, not on its number. *)
From Verif Require Import F64 Model_text Proof_text Model_corr Model_track Spec_track Model_fb Model_io Spec_io Proof_io Proof_io2 Proof_io3 Proof_io4 Model_files Spec_files Lib Base.
Local Open Scope Z_scope.

Section F2.
Variable can_write : text -> bool.
Variables cb lb pb : text.
Variable bases : list text.
Variables lo hi : Z.
Hypothesis L : layout can_write cb lb pb bases lo hi.
Local Notation rng n := (lo <= n <= hi).
Local Notation files_of := (files_of cb lb pb bases).
Local Notation contents := (contents cb lb pb bases).
Local Notation file_read := (file_read cb lb pb bases).
Local Notation file_write := (file_write can_write cb lb pb bases).

Lemma tname n b : rng n -> In b bases -> read_name b n = Ok (target_file n b).
Proof. intros Hn Hb. destruct (lay_bases _ _ _ _ _ _ _ L b Hb) as (_ & _ & H). destruct (H n Hn) as (t & E). unfold target_file. now rewrite E. Qed.

Lemma targets_eq fs fs' n n' bs : rng n -> rng n' -> incl bs bases -> map fs (map (target_file n) bs) = map fs' (map (target_file n') bs) ->
  read_all_targets fs bs n = read_all_targets fs' bs n'.
Proof.
  intros Hn Hn' Hi. induction bs as [|b bs IH]; intros E; [reflexivity|]. cbn [map] in E. injection E as E1 E2.
  cbn [read_all_targets]. unfold read_targets. rewrite !tname by (auto; apply Hi; now left). cbn [bind]. rewrite E1, IH; auto. intros x Hx. apply Hi. now right.
Qed.
Lemma read_eq fs fs' n n' l : rng n -> rng n' -> contents fs n = contents fs' n' -> file_read fs n l = file_read fs' n' l.
Proof.
  intros Hn Hn' E. unfold Spec_files.contents, Spec_files.files_of in E. cbn [map] in E. injection E as E1 E2 E3 E4.
  unfold Model_files.file_read.
  assert (X : forall lb' pb', lb' = lb \/ lb' = [] -> pb' = pb \/ pb' = [] -> frame_read fs cb lb' (Some pb') bases n = frame_read fs' cb lb' (Some pb') bases n').
  { intros lb' pb' Hl Hp. rewrite !frame_read_eq. rewrite (targets_eq fs fs' n n' bases) by (auto using incl_refl).
    assert (Y : read_path_frame fs cb lb' (Some pb') n = read_path_frame fs' cb lb' (Some pb') n'); [|now rewrite Y].
    unfold read_path_frame, opt_name. rewrite E1. destruct Hl as [->| ->], Hp as [->| ->]; rewrite ?E2, ?E3; reflexivity. }
  destruct l; rewrite X; auto.
Qed.
Lemma read_eq_fresh fs fs' n n' : rng n -> rng n' -> fs (frame_name cb n) = fs' (frame_name cb n') ->
  (forall b, In b bases -> fs (target_file n b) = fs' (target_file n' b)) -> file_read fs n false = file_read fs' n' false.
Proof.
  intros Hn Hn' E1 E4. unfold Model_files.file_read. rewrite !frame_read_eq. rewrite (targets_eq fs fs' n n' bases); auto using incl_refl.
  - unfold read_path_frame, opt_name. rewrite E1. reflexivity.
  - rewrite !map_map. apply map_ext_in. exact E4.
Qed.

(** the texts of a frame *)
Definition want_rows (f : frame) := write_rows (zrange 0 (fr_num f)) (fr_corr f) (map of_pinfo (fr_path f)) true
  (line (print_int (fr_num f)), line (print_int (fr_num f)), line (print_int (fr_num f))).
Definition wantt (f : frame) : list (option text) := map (fun tn => Some (targets_text (fst tn) (snd tn))) (combine (fr_targ f) (fr_numt f)).
Definition want (f : frame) : list (option text) :=
  let '((lt, ct, pt), _) := want_rows f in Some ct :: Some lt :: Some pt :: wantt f.
Definition writable (f : frame) : Prop :=
  length (fr_targ f) = length bases /\ length (fr_numt f) = length bases /\ snd (want_rows f) = None /\ forall ts, In ts (fr_targ f) -> ts <> [].

Lemma wall_inv n l : rng n -> incl (map snd l) bases -> forall fs fs' b, write_all_targets can_write fs l n = (fs', Ok b) ->
  forall c, In c l -> fst (fst c) <> [].
Proof.
  intros Hn. induction l as [|[[ts num] x] l IH]; intros Hi fs fs' b H c Hc; [destruct Hc|]. cbn [write_all_targets] in H.
  assert (Hx : In x bases) by (apply Hi; now left). destruct (lay_bases _ _ _ _ _ _ _ L x Hx) as (B1 & B2 & _).
  unfold write_targets in H. rewrite write_name_plain in H by (auto; pose proof (lay_pos _ _ _ _ _ _ _ L); lia). rewrite tname in H by auto.
  rewrite (lay_write _ _ _ _ _ _ _ L n (target_file n x) Hn) in H by (do 3 right; apply in_map; auto).
  destruct ts as [|t ts]; [discriminate H|]. destruct Hc as [<-|Hc]; [discriminate|]. eapply IH; eauto. intros y Hy. apply Hi. now right.
Qed.
Lemma wall_ok n l : rng n -> incl (map snd l) bases -> NoDup (map (target_file n) (map snd l)) -> (forall c, In c l -> fst (fst c) <> []) ->
  forall fs, exists fs', write_all_targets can_write fs l n = (fs', Ok true) /\
    map fs' (map (target_file n) (map snd l)) = map (fun c => Some (targets_text (fst (fst c)) (snd (fst c)))) l /\
    forall m, ~ In m (map (target_file n) (map snd l)) -> fs' m = fs m.
Proof.
  intros Hn. induction l as [|[[ts num] x] l IH]; intros Hi ND NE fs; [exists fs; cbn; auto|]. cbn [write_all_targets].
  assert (Hx : In x bases) by (apply Hi; now left). destruct (lay_bases _ _ _ _ _ _ _ L x Hx) as (B1 & B2 & _).
  unfold write_targets. rewrite write_name_plain by (auto; pose proof (lay_pos _ _ _ _ _ _ _ L); lia). rewrite tname by auto.
  rewrite (lay_write _ _ _ _ _ _ _ L n (target_file n x) Hn) by (do 3 right; apply in_map; auto).
  cbn [map snd] in ND. inversion ND as [|? ? N1 N2]; subst. pose proof (NE _ (or_introl eq_refl)) as NT. cbn [fst] in NT. destruct ts as [|t ts]; [contradiction|].
  destruct (IH ltac:(intros y Hy; apply Hi; now right) N2 ltac:(intros c Hc; apply NE; now right) (put fs (target_file n x) (targets_text (t :: ts) num))) as (fs' & W & M & O).
  exists fs'. split; [exact W|]. split.
  - cbn [map snd fst]. rewrite M. f_equal. rewrite O by assumption. apply put_eq.
  - intros m Hm. cbn [map snd] in Hm. rewrite O by (intros I; apply Hm; now right). apply put_neq. intros ->. apply Hm. now left.
Qed.
Lemma path_write fs f n : rng n -> exists fs', write_path_frame can_write fs (fr_corr f) (map of_pinfo (fr_path f)) (fr_num f) cb lb (Some pb) n
    = (fs', match snd (want_rows f) with Some e => Exn e | None => Ok true end) /\
  (let '((lt, ct, pt), _) := want_rows f in fs' (frame_name cb n) = Some ct /\ fs' (frame_name lb n) = Some lt /\ fs' (frame_name pb n) = Some pt) /\
  forall m, m <> frame_name cb n -> m <> frame_name lb n -> m <> frame_name pb n -> fs' m = fs m.
Proof.
  intros Hn. pose proof (lay_own _ _ _ _ _ _ _ L n Hn) as ND. unfold Spec_files.files_of in ND.
  inversion ND as [|? ? D1 ND1]; inversion ND1 as [|? ? D2 ND2]; subst.
  assert (N1 : frame_name cb n <> frame_name lb n) by (intros X; apply D1; left; auto).
  assert (N2 : frame_name cb n <> frame_name pb n) by (intros X; apply D1; right; left; auto).
  assert (N3 : frame_name lb n <> frame_name pb n) by (intros X; apply D2; left; auto).
  unfold write_path_frame. rewrite !(lay_write _ _ _ _ _ _ _ L n _ Hn) by (unfold Spec_files.files_of; cbn [In]; auto). cbn [negb].
  pose proof (lay_prio _ _ _ _ _ _ _ L) as NP. destruct pb as [|c p]; [contradiction|]. unfold opt_name.
  cbn [negb andb].
  fold (want_rows f). destruct (want_rows f) as [[[lt ct] pt] e]. eexists. split; [reflexivity|]. split.
  - rewrite put_eq. rewrite !put_neq by auto. rewrite !put_eq. rewrite put_neq, put_eq by auto. auto.
  - intros m M1 M2 M3. rewrite !put_neq by auto. reflexivity.
Qed.
Lemma files_map fs n : contents fs n = fs (frame_name cb n) :: fs (frame_name lb n) :: fs (frame_name pb n) :: map fs (map (target_file n) bases).
Proof. reflexivity. Qed.
Lemma cams_bases f : length (fr_targ f) = length bases -> length (fr_numt f) = length bases -> map snd (combine (combine (fr_targ f) (fr_numt f)) bases) = bases.
Proof. intros A B. apply combine_snd. rewrite combine_length. lia. Qed.
Lemma cams_fst f : length (fr_targ f) = length bases -> length (fr_numt f) = length bases -> map fst (combine (combine (fr_targ f) (fr_numt f)) bases) = combine (fr_targ f) (fr_numt f).
Proof. intros A B. apply combine_fst. rewrite combine_length. lia. Qed.
Lemma write_inv fs f n fs' : rng n -> file_write fs f n = Ok fs' -> writable f.
Proof.
  intros Hn H. unfold Model_files.file_write in H. destruct (Nat.eqb_spec (length (fr_targ f)) (length bases)) as [A|]; [|discriminate].
  destruct (Nat.eqb_spec (length (fr_numt f)) (length bases)) as [B|]; [|discriminate]. cbn [andb negb] in H. unfold frame_write in H.
  destruct (path_write fs f n Hn) as (fs1 & E & _ & _). rewrite E in H. split; auto. split; auto. destruct (snd (want_rows f)); [discriminate|]. split; auto.
  intros ts Hts. destruct (write_all_targets _ _ _ _) as [fs2 [b|e]] eqn:W; [|discriminate].
  assert (I : In ts (map fst (combine (fr_targ f) (fr_numt f)))) by (rewrite combine_fst by lia; exact Hts).
  rewrite <- cams_fst, map_map in I by auto. apply in_map_iff in I as (c & <- & Hc). eapply wall_inv in W; eauto. rewrite cams_bases by auto. apply incl_refl.
Qed.
Lemma write_ok fs f n : rng n -> writable f -> exists fs', file_write fs f n = Ok fs' /\ contents fs' n = want f /\ forall m, ~ In m (files_of n) -> fs' m = fs m.
Proof.
  intros Hn (A & B & C & NE). unfold Model_files.file_write. rewrite A, B, Nat.eqb_refl. cbn [andb negb]. unfold frame_write.
  destruct (path_write fs f n Hn) as (fs1 & E & T & O). rewrite E, C.
  pose proof (lay_own _ _ _ _ _ _ _ L n Hn) as ND. unfold Spec_files.files_of in ND.
  inversion ND as [|? ? D1 ND1]; inversion ND1 as [|? ? D2 ND2]; inversion ND2 as [|? ? D3 ND3]; subst.
  destruct (wall_ok n (combine (combine (fr_targ f) (fr_numt f)) bases) Hn) with (fs := fs1) as (fs2 & W & M & O2).
  - rewrite cams_bases by auto. apply incl_refl.
  - now rewrite cams_bases by auto.
  - intros c Hc. apply NE. assert (I : In (fst c) (combine (fr_targ f) (fr_numt f))) by (rewrite <- cams_fst by auto; now apply in_map).
    assert (I2 : In (fst (fst c)) (map fst (combine (fr_targ f) (fr_numt f)))) by now apply in_map. rewrite combine_fst in I2 by lia. exact I2.
  - rewrite W. cbn [bind]. exists fs2. split; auto. rewrite cams_bases in M, O2 by auto. split.
    + rewrite files_map, M. unfold want. destruct (want_rows f) as [[[lt ct] pt] e]. destruct T as (T1 & T2 & T3).
      rewrite !O2 by (auto; intros I; (apply D1 + apply D2 + apply D3); cbn [In]; auto). rewrite T1, T2, T3. unfold wantt.
      do 3 f_equal. rewrite <- (map_map fst (fun tn : list target * Z => Some (targets_text (fst tn) (snd tn)))). now rewrite cams_fst by auto.
    + intros m Hm. unfold Spec_files.files_of in Hm. cbn [In] in Hm. rewrite O2 by tauto. apply O; intros ->; tauto.
Qed.
Lemma write_spec fs f n fs' : rng n -> file_write fs f n = Ok fs' -> writable f /\ contents fs' n = want f /\ forall m, ~ In m (files_of n) -> fs' m = fs m.
Proof. intros Hn H. pose proof (write_inv _ _ _ _ Hn H) as W. split; auto. destruct (write_ok fs f n Hn W) as (x & E & R). rewrite E in H. injection H as <-. exact R. Qed.
Lemma contents_len fs n : length (contents fs n) = (3 + length bases)%nat.
Proof. unfold Spec_files.contents, Spec_files.files_of. cbn [map length]. rewrite !map_length. reflexivity. Qed.
Lemma same_files fs fs' n : contents fs n = contents fs' n <-> forall m, In m (files_of n) -> fs m = fs' m.
Proof.
  unfold Spec_files.contents. split.
  - intros E m Hm. apply In_nth_error in Hm as (k & Hk). assert (X := f_equal (fun l => nth_error l k) E). cbn beta in X. rewrite !nth_error_map, Hk in X. cbn in X. congruence.
  - intros H. now apply map_ext_in.
Qed.

(** a directory with the files of one frame *)
Fixpoint place (names : list text) (c : list (option text)) : files :=
  match names, c with x :: xs, t :: ts => fun m => if teqb m x then t else place xs ts m | _, _ => fun _ => None end.
Lemma place_ok names c : NoDup names -> length c = length names -> map (place names c) names = c.
Proof.
  revert c. induction names as [|x names IH]; intros [|t c] ND E; try discriminate E; [reflexivity|]. cbn [map place]. rewrite teqb_refl. f_equal.
  inversion ND as [|? ? D ND']; subst. injection E as E. transitivity (map (place names c) names); [|now apply IH]. apply map_ext_in. intros y Hy. destruct (teqb_spec y x) as [->|]; [contradiction|]. reflexivity.
Qed.
Definition cparse (l : bool) (c : list (option text)) : result frame := file_read (place (files_of lo) c) lo l.
Lemma cparse_ok fs n l : rng n -> file_read fs n l = cparse l (contents fs n).
Proof.
  intros Hn. assert (Hlo : rng lo) by lia. unfold cparse. apply read_eq; auto. unfold Spec_files.contents at 2.
  rewrite place_ok; auto; [apply (lay_own _ _ _ _ _ _ _ L); auto|]. unfold Spec_files.contents, Spec_files.files_of. cbn [map length]. now rewrite !map_length.
Qed.
End F2.
