(** Runs on files are runs on numbered contents; what is read back after a write. *)
From Coq Require Import Permutation.
From Verif Require Import F64 Model_text Proof_text Model_corr Model_track Spec_track Proof_unread Proof_keep Model_fb Spec_fb Proof_fb Proof_keep2
  Model_io Spec_io Proof_io Proof_io2 Proof_io3 Proof_io4 Model_files Spec_files Proof_files Proof_files2 Lib Base.
Local Open Scope Z_scope.

Section F3.
Variable can_write : text -> bool.
Variables cb lb pb : text.
Variable bases : list text.
Variables lo hi : Z.
Hypothesis L : layout can_write cb lb pb bases lo hi.
Local Notation rng n := (lo <= n <= hi).
Local Notation files_of := (files_of cb lb pb bases).
Local Notation contents := (contents cb lb pb bases).
Local Notation file_read := (file_read cb lb pb bases).
Local Notation file_write := (file_write can_write cb lb pb bases).
Local Notation cparse := (cparse cb lb pb bases lo).
Local Notation writable := (writable bases).
Local Notation file_in := (file_in cb lb pb bases).

Lemma files_apart n m t : rng n -> rng m -> n <> m -> In t (files_of n) -> ~ In t (files_of m).
Proof. intros Hn Hm D I J. apply D. eapply (lay_apart _ _ _ _ _ _ _ L); eauto. Qed.
Lemma contents_other fs f n fs' m : rng n -> rng m -> n <> m -> file_write fs f n = Ok fs' -> contents fs' m = contents fs m.
Proof.
  intros Hn Hm D H. destruct (write_spec _ _ _ _ _ _ _ L _ _ _ _ Hn H) as (_ & _ & O). apply same_files. intros t Ht. apply O. eapply files_apart; eauto.
Qed.

(** contents only *)
Definition csim (fs0 fs : files) (d : disk (list (option text))) : Prop :=
  (forall n, rng n -> contents fs n = d n) /\ (forall m, ~ file_in lo hi m -> fs m = fs0 m).
Lemma csim_read fs0 fs d n l : csim fs0 fs d -> rng n -> file_read fs n l = cparse l (d n).
Proof. intros (H & _) Hn. rewrite <- (H n Hn). eapply cparse_ok; eauto. Qed.
Lemma csim_write fs0 fs d f n fs' : csim fs0 fs d -> rng n -> file_write fs f n = Ok fs' -> csim fs0 fs' (Model_fb.put _ d n (want f)).
Proof.
  intros (H & O) Hn W. destruct (write_spec _ _ _ _ _ _ _ L _ _ _ _ Hn W) as (_ & C & O'). split.
  - intros m Hm. unfold Model_fb.put. destruct (Z.eqb_spec m n) as [->|D]; [exact C|]. rewrite <- (H m Hm). exact (contents_other fs f n fs' m Hn Hm (fun e => D (eq_sym e)) W).
  - intros m Hm. rewrite O' by (intros I; apply Hm; exists n; auto). now apply O.
Qed.

(** contents and the frame that was written *)
Definition cell := option (list (option text) * option frame).
Definition kparse (l : bool) (c : cell) : result frame := match c with Some (t, _) => cparse l t | None => Exn IOError end.
Definition kstore (f : frame) : cell := Some (want f, Some f).
Definition kstart (fs : files) : disk cell := fun n => if (lo <=? n) && (n <=? hi) then Some (contents fs n, None) else None.
Definition ksim (fs0 fs : files) (d : disk cell) : Prop :=
  (forall n, rng n -> exists o, d n = Some (contents fs n, o) /\ forall f, o = Some f -> writable f) /\ (forall m, ~ file_in lo hi m -> fs m = fs0 m).
Lemma kstart_in fs n : rng n -> kstart fs n = Some (contents fs n, None).
Proof. intros Hn. unfold kstart. destruct (Z.leb_spec lo n), (Z.leb_spec n hi); auto; lia. Qed.
Lemma kstart_out fs n f l : kparse l (kstart fs n) = Ok f -> rng n /\ file_read fs n l = Ok f.
Proof.
  unfold kstart. intros H. destruct (Z.leb_spec lo n), (Z.leb_spec n hi); try discriminate H. split; auto. cbn [andb kparse] in H. rewrite (cparse_ok _ _ _ _ _ _ _ L); auto.
Qed.
Lemma kstart_sim fs : ksim fs fs (kstart fs).
Proof. split; auto. intros n Hn. exists None. split; [now apply kstart_in|discriminate]. Qed.
Lemma ksim_read fs0 fs d n l : ksim fs0 fs d -> rng n -> file_read fs n l = kparse l (d n).
Proof. intros (H & _) Hn. destruct (H n Hn) as (o & -> & _). cbn [kparse]. eapply cparse_ok; eauto. Qed.
Lemma ksim_write fs0 fs d f n fs' : ksim fs0 fs d -> rng n -> file_write fs f n = Ok fs' -> ksim fs0 fs' (Model_fb.put _ d n (kstore f)).
Proof.
  intros (H & O) Hn W. destruct (write_spec _ _ _ _ _ _ _ L _ _ _ _ Hn W) as (WF & C & O'). split.
  - intros m Hm. unfold Model_fb.put. destruct (Z.eqb_spec m n) as [->|D].
    + exists (Some f). rewrite C. split; auto. intros g [= <-]. exact WF.
    + destruct (H m Hm) as (o & E & F). exists o. split; auto. rewrite E. f_equal. f_equal. symmetry. exact (contents_other fs f n fs' m Hn Hm (fun e => D (eq_sym e)) W).
  - intros m Hm. rewrite O' by (intros I; apply Hm; exists n; auto). now apply O.
Qed.

(** frames that were read *)
Lemma pinfos_len l m : as_pinfos l = Ok m -> length m = length l.
Proof. revert m. induction l as [|p l IH]; intros m H; cbn [as_pinfos] in H; [injection H as <-; auto|]. apply bind_ok in H as (q & _ & H). apply bind_ok in H as (r & H1 & H). injection H as <-. cbn. now rewrite (IH r). Qed.
Lemma corrs_len l m : as_corrs l = Ok m -> length m = length l.
Proof. revert m. induction l as [|[p|] l IH]; intros m H; cbn [as_corrs] in H; [injection H as <-; auto| |discriminate]. apply bind_ok in H as (q & H1 & H). injection H as <-. cbn. now rewrite (IH q). Qed.
Lemma rows_len ls i n lk pk c p : (i <= n)%nat -> read_path_rows ls i n lk pk = Ok (c, p) -> length c = length p.
Proof.
  revert i lk pk c p. induction ls as [|l ls IH]; intros i lk pk c p Hi H; cbn [read_path_rows] in H; [injection H as <- <-; now rewrite !repeat_length|].
  destruct (Nat.leb_spec n i); [discriminate|]. apply bind_ok in H as ([[pv nx] lk'] & _ & H). apply bind_ok in H as ([pr pk'] & _ & H). apply bind_ok in H as (a & _ & H).
  apply bind_ok in H as ([c' p'] & H1 & H). injection H as <- <-. apply IH in H1; [|lia]. cbn. now rewrite H1.
Qed.
Lemma rows_fresh ls i n pk c p : read_path_rows ls i n None pk = Ok (c, p) -> forall x, In x p -> pr_prev x = PREV_NONE /\ pr_next x = NEXT_NONE.
Proof.
  revert i pk c p. induction ls as [|l ls IH]; intros i pk c p H x Hx; cbn [read_path_rows] in H.
  - injection H as <- <-. apply repeat_spec in Hx as ->. split; reflexivity.
  - destruct (Nat.leb_spec n i); [discriminate|]. cbn [bind] in H. apply bind_ok in H as ([pr pk'] & _ & H). apply bind_ok in H as (a & _ & H).
    apply bind_ok in H as ([c' p'] & H1 & H). injection H as <- <-. destruct Hx as [<-|Hx]; [split; reflexivity|]. eapply IH; eauto.
Qed.
Lemma rows_zero ls i n lk pk c p : read_path_rows ls i n lk pk = Ok (c, p) -> forall x, In x p -> pr_inlist x = 0.
Proof.
  revert i lk pk c p. induction ls as [|l ls IH]; intros i lk pk c p H x Hx; cbn [read_path_rows] in H.
  - injection H as <- <-. apply repeat_spec in Hx as ->. reflexivity.
  - destruct (Nat.leb_spec n i); [discriminate|]. apply bind_ok in H as ([[pv nx] lk'] & _ & H). apply bind_ok in H as ([pr pk'] & _ & H). apply bind_ok in H as (a & _ & H).
    apply bind_ok in H as ([c' p'] & H1 & H). injection H as <- <-. destruct Hx as [<-|Hx]; [reflexivity|]. eapply IH; eauto.
Qed.
Lemma pinfos_in l m q : as_pinfos l = Ok m -> In q m -> exists p, In p l /\ as_pinfo p = Ok q.
Proof.
  revert m. induction l as [|p l IH]; intros m H Hq; cbn [as_pinfos] in H; [injection H as <-; destruct Hq|]. apply bind_ok in H as (r & Hr & H). apply bind_ok in H as (s & H1 & H). injection H as <-.
  destruct Hq as [<-|Hq]; [exists p; split; auto; now left|]. destruct (IH _ H1 Hq) as (p' & A & B). exists p'. split; auto. now right.
Qed.
Lemma as_pinfo_keeps p q : as_pinfo p = Ok q -> p_prev q = pr_prev p /\ p_next q = pr_next p /\ p_prio q = pr_prio p /\ p_inlist q = pr_inlist p.
Proof. unfold as_pinfo. destruct (pr_x p) as [|x [|y [|z [|? ?]]]]; try discriminate. intros [= <-]. auto. Qed.
Lemma all_len fs bs n ts : read_all_targets fs bs n = Ok ts -> length ts = length bs.
Proof. revert ts. induction bs as [|b bs IH]; intros ts H; cbn [read_all_targets] in H; [injection H as <-; auto|]. apply bind_ok in H as (t & _ & H). apply bind_ok in H as (r & H1 & H). injection H as <-. cbn. now rewrite (IH r). Qed.
Lemma read_shape fs n l f : file_read fs n l = Ok f ->
  fr_num f = Z.of_nat (length (fr_path f)) /\ length (fr_corr f) = length (fr_path f) /\ fr_numt f = map (fun t => Z.of_nat (length t)) (fr_targ f) /\ length (fr_targ f) = length bases /\
  (forall p, In p (fr_path f) -> p_inlist p = 0) /\ (l = false -> forall p, In p (fr_path f) -> fresh_particle p).
Proof.
  unfold Model_files.file_read. intros H. apply bind_ok in H as ([g ok] & Hg & H). destruct ok; [|discriminate]. unfold as_frame in H.
  apply bind_ok in H as (path & H1 & H). apply bind_ok in H as (cor & H2 & H). injection H as <-. cbn [fr_num fr_path fr_corr fr_numt fr_targ].
  assert (X : exists lb' pb', frame_read fs cb lb' (Some pb') bases n = Ok (g, true) /\ (l = false -> lb' = [])).
  { destruct l; [exists lb, pb|exists [], []]; split; auto; discriminate. }
  destruct X as (lb' & pb' & X & Xl). rewrite frame_read_eq in X. apply bind_ok in X as ([c p] & X1 & X). apply bind_ok in X as (ts & X2 & X). injection X as <-. cbn [if_corr if_path if_numt if_targ if_num] in *.
  assert (Y : length c = length p /\ (forall x, In x p -> pr_inlist x = 0) /\ (l = false -> forall x, In x p -> pr_prev x = PREV_NONE /\ pr_next x = NEXT_NONE)).
  { unfold read_path_frame in X1. destruct (fs (frame_name cb n)) as [t|]; [|injection X1 as <- <-; split; auto; split; intros; contradiction].
    destruct (readline (lines t)) as [t1 rest]. apply bind_ok in X1 as (num & _ & X1). destruct (Z.ltb_spec num 0); [discriminate|].
    destruct (match lb' with [] => _ | _ => _ end) as [lk|] eqn:EL; [|injection X1 as <- <-; split; auto; split; intros; contradiction].
    destruct (match pb' with [] => _ | _ => _ end) as [pk|]; [|injection X1 as <- <-; split; auto; split; intros; contradiction].
    split; [exact (rows_len _ _ _ _ _ _ _ (Nat.le_0_l _) X1)|]. split; [eapply rows_zero; eauto|]. intros El. rewrite (Xl El) in EL. injection EL as <-. eapply rows_fresh; eauto. }
  destruct Y as (Y1 & Y2 & Y3). pose proof (pinfos_len _ _ H1) as P1. pose proof (corrs_len _ _ H2) as P2. rewrite P1, P2, Y1. split; auto. split; auto. split; auto. split; [eapply all_len; eauto|]. split.
  - intros q Hq. destruct (pinfos_in _ _ _ H1 Hq) as (p0 & A & B). apply as_pinfo_keeps in B as (_ & _ & _ & ->). auto.
  - intros El q Hq. destruct (pinfos_in _ _ _ H1 Hq) as (p0 & A & B). apply as_pinfo_keeps in B as (Q1 & Q2 & _). destruct (Y3 El _ A). split; congruence.
Qed.

(** writing a frame and reading it back with its links *)
Lemma pinfo_back l m : Forall2 (same_path 3) (map of_pinfo l) m ->
  exists r, as_pinfos m = Ok r /\ Forall2 (fun p q => (same_position p q /\ p_prio q = p_prio p) /\ p_prev q = p_prev p /\ p_next q = p_next p) l r.
Proof.
  revert m. induction l as [|p l IH]; intros m H; inversion H as [|? q ? m' Hp H']; subst; [exists []; split; auto|].
  destruct (IH _ H') as (r & E & F). cbn [as_pinfos]. destruct Hp as (X & P1 & P2 & P3 & _). unfold of_pinfo in *. destruct (p_x p) as [[x y] z] eqn:Ex. cbn [pr_x pr_prev pr_next pr_prio] in *.
  inversion X as [|? x' ? l1 X1 XA E1 E1']; subst. inversion XA as [|? y' ? l2 X2 XB]; subst. inversion XB as [|? z' ? l3 X3 XC]; subst. inversion XC; subst. unfold as_pinfo. rewrite <- E1'. cbn [bind]. rewrite E. cbn [bind]. eexists. split; [reflexivity|].
  constructor; auto. cbn [p_prev p_next p_prio]. unfold same_position. rewrite Ex. cbn [p_x]. auto.
Qed.
Lemma corrs_back l : as_corrs (map Some l) = Ok l.
Proof. induction l as [|c l IH]; [reflexivity|]. cbn [map as_corrs]. rewrite IH. reflexivity. Qed.
Lemma args_eq f : length (fr_targ f) = length bases -> fr_numt f = map (fun t => Z.of_nat (length t)) (fr_targ f) ->
  combine (combine (fr_targ f) (fr_numt f)) bases = map cam_args (combine (fr_targ f) bases).
Proof.
  intros A ->. revert A. generalize bases. generalize (fr_targ f). clear. intros ts. induction ts as [|t ts IH]; intros [|b bs] A; try discriminate A; [reflexivity|]. cbn [combine map]. rewrite IH by (cbn in A; congruence). reflexivity.
Qed.
Definition good (f : frame) : Prop :=
  fr_num f = Z.of_nat (length (fr_path f)) /\ length (fr_corr f) = length (fr_path f) /\ fr_numt f = map (fun t => Z.of_nat (length t)) (fr_targ f) /\
  Forall path_ok (map of_pinfo (fr_path f)) /\ Forall corres_ok (fr_corr f) /\ Forall (Forall target_ok) (fr_targ f).
Lemma bases_fine n : rng n -> bases_ok can_write cb lb pb n.
Proof.
  intros Hn. pose proof (lay_own _ _ _ _ _ _ _ L n Hn) as ND. unfold Spec_files.files_of in ND. inversion ND as [|? ? D1 ND1]; inversion ND1 as [|? ? D2 ND2]; subst.
  split; [apply (lay_links _ _ _ _ _ _ _ L)|]. split; [apply (lay_prio _ _ _ _ _ _ _ L)|].
  split; [intros X; apply D1; left; now rewrite X|]. split; [intros X; apply D1; right; left; now rewrite X|]. split; [intros X; apply D2; left; now rewrite X|].
  split; [|split]; apply (lay_write _ _ _ _ _ _ _ L n _ Hn); unfold Spec_files.files_of; cbn [In]; auto.
Qed.
Lemma cams_fine n f : rng n -> writable f -> good f -> Forall2 (cam_ok can_write n) (combine (fr_targ f) bases) (map (target_file n) bases).
Proof.
  intros Hn (A & _ & _ & NE) (_ & _ & _ & _ & _ & T).
  assert (G : forall bs ts, incl bs bases -> length ts = length bs -> (forall t, In t ts -> t <> []) -> Forall (Forall target_ok) ts ->
    Forall2 (cam_ok can_write n) (combine ts bs) (map (target_file n) bs)).
  { intros bs. induction bs as [|b bs IH]; intros [|t ts] I E N F; try discriminate E; [constructor|]. inversion F; subst. cbn [combine map]. constructor.
    - assert (Hb : In b bases) by (apply I; now left). destruct (lay_bases _ _ _ _ _ _ _ L b Hb) as (B1 & B2 & _). unfold cam_ok. cbn [fst snd].
      split; [apply N; now left|]. split; auto. split; auto. split; auto. split; [eapply tname; eauto|]. apply (lay_write _ _ _ _ _ _ _ L n _ Hn). do 3 right. now apply in_map.
    - apply IH; auto; [intros x Hx; apply I; now right|intros x Hx; apply N; now right]. }
  apply G; auto using incl_refl.
Qed.
Lemma back_frame n f : rng n -> writable f -> good f ->
  exists g, cparse true (want f) = Ok g /\ same_particles f g /\ Forall2 (fun p q => p_prev q = p_prev p /\ p_next q = p_next p) (fr_path f) (fr_path g).
Proof.
  intros Hn WF G. assert (Hlo : rng lo) by lia. pose proof WF as (A & B & _ & _). pose proof G as (G1 & G2 & G3 & G4 & G5 & G6).
  pose proof (frame_round_trip can_write (fun _ => None) (fr_corr f) (map of_pinfo (fr_path f)) (combine (fr_targ f) bases) (map (target_file lo) bases) cb lb pb lo
    (lay_pos _ _ _ _ _ _ _ L) (bases_fine lo Hlo) ltac:(now rewrite map_length) G4 G5 (cams_fine lo f Hlo WF G) (lay_own _ _ _ _ _ _ _ L lo Hlo)) as RT.
  destruct (write_ok _ _ _ _ _ _ _ L (fun _ => None) f lo Hlo WF) as (fs' & W & C & _).
  unfold Model_files.file_write in W. rewrite A, B, Nat.eqb_refl in W. cbn [andb negb] in W. rewrite map_length, <- G1 in RT. rewrite (args_eq f A G3) in W.
  destruct (frame_write _ _ _ _ _ _ _ _ _ _) as [fs1 r]. destruct RT as (-> & g & HR & N1 & (cor' & N2 & N3) & N4 & N5 & N6). cbn [bind] in W. injection W as <-.
  rewrite <- C, <- (cparse_ok _ _ _ _ _ _ _ L fs1 lo true Hlo). unfold Model_files.file_read. rewrite combine_snd in HR by auto. rewrite HR. cbn [bind]. unfold as_frame.
  destruct (pinfo_back _ _ N4) as (r & E & F). rewrite E, N2, corrs_back. cbn [bind]. eexists. split; [reflexivity|]. unfold same_particles. cbn [fr_num fr_path fr_corr fr_targ fr_numt].
  split; [split|].
  - exact N1.
  - split; [clear - F; induction F as [|p q l m (X & _) F IH]; constructor; auto|]. split; [exact N3|]. split; [rewrite combine_fst in N5 by auto; exact N5|].
    rewrite N6, G3. transitivity (map (fun t : list target => Z.of_nat (length t)) (map fst (combine (fr_targ f) bases))); [now rewrite map_map|now rewrite combine_fst by auto].
  - clear - F. induction F as [|p q l m (_ & X) F IH]; constructor; auto.
Qed.
End F3.
