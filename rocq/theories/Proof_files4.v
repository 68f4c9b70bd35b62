(** Forward runs on two directories in step; what a forward run leaves in the files. *)
From Coq Require Import Permutation.
From Verif Require Import F64 Model_text Proof_text Model_corr Model_track Spec_track Proof_unread Proof_keep Model_fb Spec_fb Proof_fb Proof_keep2 Prop_fb
  Model_io Spec_io Proof_io Proof_io2 Proof_io3 Proof_io4 Model_files Spec_files Proof_files Proof_files2 Proof_files3 Lib Base.
Local Open Scope Z_scope.

Section Two.
Variables F W : Type.
Variable rd : W -> Z -> bool -> result F.
Variable wr : W -> F -> Z -> result W.
Variable fstep : F -> F -> F -> F -> result (F * F * F * Z).
Variable sim : W -> W -> Prop.
Variable rng wrng : Z -> Prop.
Hypothesis sim_read : forall w d n, sim w d -> rng n -> rd w n false = rd d n false.
Hypothesis sim_write : forall w d f n w', sim w d -> wrng n -> wr w f n = Ok w' -> exists d', wr d f n = Ok d' /\ sim w' d'.
Definition sim2 (a b : wstate F W) : Prop := fst a = fst b /\ sim (snd a) (snd b).
Lemma read_sim2 a b n a' : sim2 a b -> rng n -> w_read F W rd a n false = Ok a' -> exists b', w_read F W rd b n false = Ok b' /\ sim2 a' b'.
Proof.
  destruct a as [buf w], b as [buf' d]. intros (E & S) Hn H. cbn [fst snd] in *. subst buf'. unfold w_read in *. rewrite <- (sim_read _ _ n S Hn).
  apply bind_ok in H as (f & Hf & H). rewrite Hf. cbn [bind]. apply bind_ok in H as (b1 & Hb & H). injection H as <-. rewrite Hb. eexists. split; [reflexivity|]. split; auto.
Qed.
Lemma write_sim2 a b n a' : sim2 a b -> wrng n -> w_write F W wr a n = Ok a' -> exists b', w_write F W wr b n = Ok b' /\ sim2 a' b'.
Proof.
  destruct a as [buf w], b as [buf' d]. intros (E & S) Hn H. cbn [fst snd] in *. subst buf'. unfold w_write in *.
  apply bind_ok in H as (f & Hf & H). apply bind_ok in H as (w' & Hw & H). injection H as <-. rewrite Hf. cbn [bind].
  destruct (sim_write _ _ _ _ _ S Hn Hw) as (d' & -> & S'). eexists. split; [reflexivity|]. split; auto.
Qed.
Lemma next_sim2 a b : sim2 a b -> sim2 (w_next F W a) (w_next F W b).
Proof. intros (E & S). split; auto. cbn [w_next fst]. now rewrite E. Qed.
Lemma prev_sim2 a b : sim2 a b -> sim2 (w_prev F W a) (w_prev F W b).
Proof. intros (E & S). split; auto. cbn [w_prev fst]. now rewrite E. Qed.
Lemma loop_sim2 last a b step a' : sim2 (fst a) (fst b) /\ snd a = snd b -> wrng step -> (step < last - 2 -> rng (step + 3)) ->
  w_loop F W rd wr fstep last a step = Ok a' -> exists b', w_loop F W rd wr fstep last b step = Ok b' /\ sim2 (fst a') (fst b') /\ snd a' = snd b'.
Proof.
  destruct a as [[buf w] nl], b as [[buf' d] nl']. intros ((E & S) & En) R1 R2 H. cbn [fst snd] in *. subst buf' nl'.
  unfold w_loop in *.
  apply bind_ok in H as (x0 & H0 & H). apply bind_ok in H as (x1 & H1 & H). apply bind_ok in H as (x2 & H2 & H). apply bind_ok in H as (x3 & H3 & H).
  rewrite H0, H1, H2, H3. cbn [bind]. apply bind_ok in H as ([[[y1 y2] y3] c] & Hs & H). rewrite Hs. cbn [bind].
  apply bind_ok in H as (b1 & Hb1 & H). apply bind_ok in H as (b2 & Hb2 & H). apply bind_ok in H as (b3 & Hb3 & H). rewrite Hb1. cbn [bind]. rewrite Hb2. cbn [bind]. rewrite Hb3. cbn [bind].
  apply bind_ok in H as (st & Hw & H). destruct (write_sim2 _ (w_next F W (b3, d)) step st (next_sim2 (b3, w) (b3, d) (conj eq_refl S)) R1 Hw) as (st' & Hw' & S'). rewrite Hw'. cbn [bind].
  apply bind_ok in H as (st1 & Hr & H). injection H as <-.
  destruct (Z.ltb_spec step (last - 2)) as [L|L].
  - destruct (read_sim2 _ _ _ _ S' (R2 L) Hr) as (st1' & Hr' & S1). rewrite Hr'. cbn [bind]. eexists. split; [reflexivity|]. split; auto.
  - injection Hr as <-. cbn [bind]. eexists. split; [reflexivity|]. split; auto.
Qed.
Theorem forward_sim2 first last a b a' nl : (forall n, first <= n <= Z.max last (first + 2) -> rng n) -> (forall n, first <= n <= last -> wrng n) -> first <= last -> sim2 a b ->
  w_forward F W rd wr fstep first last a = Ok (a', nl) ->
  exists b', w_forward F W rd wr fstep first last b = Ok (b', nl) /\ sim2 a' b'.
Proof.
  intros R RW Hl S H. unfold w_forward in *.
  apply bind_ok in H as (a1 & H1 & H). unfold w_start in *. apply bind_ok in H1 as (a0 & H0 & H1). injection H1 as <-.
  apply (fold_sim sim2 _ (fun st step => do st <- w_read F W rd st step false; Ok (w_next F W st)) _ _ b) in H0 as (b0 & H0' & S0); [| exact S |].
  2:{ intros n s s' r Hn HS Hf. apply in_zrange in Hn. apply bind_ok in Hf as (s1 & Hf & Hr). injection Hr as <-.
      destruct (read_sim2 _ _ n _ HS ltac:(apply R; lia) Hf) as (s1' & E1 & S1). rewrite E1. cbn [bind]. eexists. split; [reflexivity|]. now apply next_sim2. }
  rewrite H0'. cbn [bind].
  apply bind_ok in H as (st & Hst & H).
  apply (fold_sim (fun a b => sim2 (fst a) (fst b) /\ snd a = snd b) _ (w_loop F W rd wr fstep last) _ _ (w_prev F W b0, 0)) in Hst as (st' & Hst' & S1 & En).
  2:{ cbn [fst snd]. split; auto. now apply prev_sim2. }
  2:{ intros n s s' r Hn HS Hf. apply in_zrange in Hn. eapply loop_sim2; eauto; [apply RW; lia|]. intros. apply R. lia. }
  rewrite Hst'. cbn [bind]. apply bind_ok in H as (a2 & Hf & H). injection H as <- <-.
  unfold w_finish in *. destruct (_ =? 0); [discriminate|].
  destruct (write_sim2 _ _ last _ (next_sim2 _ _ S1) ltac:(apply RW; lia) Hf) as (b2 & Hw & S2). rewrite Hw. cbn [bind]. rewrite En. eauto.
Qed.
End Two.

(** the correspondence text depends on positions and correspondences only *)
Lemma pyget_map {A B} (f : A -> B) l l' i p : map f l = map f l' -> pyget l i = Ok p -> exists p', pyget l' i = Ok p' /\ f p' = f p.
Proof.
  intros E H. assert (Len : length l = length l') by (apply (f_equal (@length _)) in E; now rewrite !map_length in E). unfold pyget in *. rewrite <- Len. destruct (pyidx (length l) i) as [k|]; [|discriminate].
  assert (X := f_equal (fun l => nth_error l k) E). cbn beta in X. rewrite !nth_error_map in X. destruct (nth_error l k) as [a|]; [|discriminate]. injection H as <-.
  destruct (nth_error l' k) as [b|]; [|discriminate]. exists b. cbn in X. split; congruence.
Qed.
Lemma rows_corr rows cor path path' : map pr_x path = map pr_x path' -> forall lt lt' ct pt pt' a b c a' b' c',
  write_rows rows cor path true (lt, ct, pt) = ((a, b, c), None) -> write_rows rows cor path' true (lt', ct, pt') = ((a', b', c'), None) -> b = b'.
Proof.
  intros E. induction rows as [|i rows IH]; intros lt lt' ct pt pt' a b c a' b' c' H H'; cbn [write_rows] in *; [congruence|].
  destruct (do p <- pyget path i; link_row p) as [r1|]; [|discriminate]. destruct (do p <- pyget path' i; link_row p) as [r1'|]; [|discriminate].
  destruct (do p <- pyget path i; do c <- pyget cor i; corr_row i p c) as [r2|] eqn:E2; [|discriminate].
  destruct (do p <- pyget path' i; do c <- pyget cor i; corr_row i p c) as [r2'|] eqn:E2'; [|discriminate].
  destruct (do p <- pyget path i; prio_row p) as [r3|]; [|discriminate]. destruct (do p <- pyget path' i; prio_row p) as [r3'|]; [|discriminate].
  assert (r2' = r2) as ->.
  { apply bind_ok in E2 as (p & P1 & E2). destruct (pyget_map pr_x path path' i p E P1) as (p' & P2 & P3). rewrite P2 in E2'. cbn [bind] in E2'. apply bind_ok in E2 as (k & K1 & E2). rewrite K1 in E2'. cbn [bind] in E2'.
    unfold corr_row in *. rewrite P3 in E2'. congruence. }
  eapply IH; eauto.
Qed.
Lemma want_corr bases f g : Kf f g -> writable bases f -> writable bases g -> nth_error (want f) 0 = nth_error (want g) 0 /\ skipn 3 (want f) = skipn 3 (want g).
Proof.
  intros (K1 & K2 & K3 & K4 & K5) (_ & _ & Wf & _) (_ & _ & Wg & _). unfold want, wantt. rewrite K3, K4. unfold want_rows in *. rewrite K1, K2 in *.
  destruct (write_rows _ _ (map of_pinfo (fr_path f)) _ _) as [[[a b] c] e] eqn:E1. destruct (write_rows _ _ (map of_pinfo (fr_path g)) _ _) as [[[a' b'] c'] e'] eqn:E2. cbn [snd] in *. subst e e'.
  split; [|reflexivity]. cbn [nth_error]. f_equal. f_equal. eapply rows_corr; [|exact E1|exact E2]. clear - K5. rewrite !map_map. induction K5 as [|p q l m (X & _) K5 IH]; [reflexivity|]. cbn [map]. rewrite IH. f_equal.
  unfold of_pinfo. rewrite X. destruct (p_x p) as [[x y] z]. reflexivity.
Qed.

Section F4.
Variable can_write : text -> bool.
Variables cb lb pb : text.
Variable bases : list text.
Lemma file_in_dec lo hi t : file_in cb lb pb bases lo hi t \/ ~ file_in cb lb pb bases lo hi t.
Proof.
  assert (DX : forall k : nat, (exists n, lo - 1 < n <= lo - 1 + Z.of_nat k /\ In t (files_of cb lb pb bases n)) \/ ~ (exists n, lo - 1 < n <= lo - 1 + Z.of_nat k /\ In t (files_of cb lb pb bases n))).
  { induction k as [|k [IH|IH]]; [right; intros (n & Hn & _); lia|left; destruct IH as (n & A & B); exists n; split; auto; lia|].
    destruct (in_dec (list_eq_dec ascii_dec) t (files_of cb lb pb bases (lo - 1 + Z.of_nat (S k)))) as [I|I]; [left; eexists; split; eauto; lia|].
    right. intros (n & Hn & J). destruct (Z.eq_dec n (lo - 1 + Z.of_nat (S k))) as [->|D]; [contradiction|]. apply IH. exists n. split; auto. lia. }
  destruct (DX (Z.to_nat (hi - lo + 1))) as [(n & Hn & I)|N]; [left; exists n; split; auto; lia|right; intros (n & Hn & I); apply N; exists n; split; auto; lia].
Qed.

Variable psort : list (f64 * Z) -> list (f64 * Z).
Hypothesis psort_perm : forall l, Permutation l (psort l).
Variable pixdist : f64 -> f64 -> f64 -> f64 -> f64.
Hypothesis ncam_ok : (1 <= length bases <= 4)%nat.
Variables imx imy : Z.
Variable ptp : Z -> vec -> f64 * f64.
Variable quader : Z -> vec -> f64 * f64 * f64 * f64.
Variable moving : vec -> vec -> vec.
Variable extrap : vec -> vec -> vec -> vec.
Variable sub : vec -> vec -> vec.
Variable norm : vec -> vec -> f64.
Variable angle : vec -> vec -> vec -> f64 * f64.
Variable flat : Z -> f64 -> f64 -> f64 * f64.
Variable point : list (f64 * f64) -> vec.
Variable tp : tpar.
Variable vl : vol.
Local Notation fstep := (trackcorr_step psort pixdist (Z.of_nat (length bases)) imx imy ptp quader moving extrap sub norm angle flat point tp vl).
Variables first last : Z.
Variables e0 e1 e2 e3 : frame.
Variable R : Z -> frame.
Hypothesis NA : do_add tp = false.
Hypothesis Hl : first < last.
Local Notation hi := (Z.max last (first + 2)).
Hypothesis L : layout can_write cb lb pb bases first hi.
Hypothesis He : last <= first + 2 -> frame_ok e2 \/ unread e2.
Theorem run_facts fs buf fs' nl :
  (forall n, first <= n <= hi -> file_read cb lb pb bases fs n false = Ok (R n) /\ frame_ok (R n)) ->
  forward_run can_write cb lb pb bases fstep first last ([e0; e1; e2; e3], fs) = Ok ((buf, fs'), nl) ->
  (exists W, (forall n, first <= n <= last -> writable bases (W n) /\ Kf (R n) (W n) /\ contents cb lb pb bases fs' n = want (W n)) /\
    (forall n, first <= n < last -> mutual (fr_path (W n)) (fr_path (W (n + 1)))) /\
    (forall p, In p (fr_path (W first)) -> p_prev p = PREV_NONE) /\ (forall p, In p (fr_path (W last)) -> p_next p = NEXT_NONE)) /\
  (forall t, ~ file_in cb lb pb bases first last t -> fs' t = fs t).
Proof.
  intros HR H.
  apply (forward_sim frame files cell (file_read cb lb pb bases) (file_write can_write cb lb pb bases) (kparse cb lb pb bases first) kstore fstep
    (ksim cb lb pb bases first hi fs) (fun n => first <= n <= hi)) with (b := ([e0; e1; e2; e3], kstart cb lb pb bases first hi fs)) in H as ([b' d'] & H & E & S1 & S2); auto.
  2:{ intros w d n l. eapply ksim_read; eauto. }
  2:{ intros w d f n w'. eapply ksim_write; eauto. }
  2:{ lia. }
  2:{ split; [reflexivity|]. apply kstart_sim. }
  cbn [fst snd] in *. subst b'.
  assert (RD : forall n, first <= n <= hi -> kparse cb lb pb bases first false (kstart cb lb pb bases first hi fs n) = Ok (R n)).
  { intros n Hn. rewrite kstart_in by auto. cbn [kparse]. rewrite <- (cparse_ok _ _ _ _ _ _ _ L) by auto. apply HR; auto. }
  pose proof H as H0.
  apply (run_keeps psort psort_perm pixdist (length bases) ncam_ok imx imy ptp quader moving extrap sub norm angle flat point tp vl cell _ _ first last e0 e1 e2 e3 _ R) in H0 as (W & W1); auto.
  2:{ intros n Hn. split; [now apply RD|]. now apply HR. }
  apply C13_forward_run in H as (W' & M1 & M2 & M3 & M4 & M5 & _); auto.
  2:{ intros n f Hf. apply (kstart_out _ _ _ _ _ _ _ L) in Hf as (Hn & Hf). destruct (HR n Hn) as (E & F). rewrite E in Hf. injection Hf as <-. split; auto.
      apply read_shape in E as (_ & _ & _ & _ & _ & E); auto. }
  assert (EW : forall n, first <= n <= last -> W' n = W n).
  { intros n Hn. destruct (W1 n Hn) as (X & _). rewrite (M1 n Hn) in X. now injection X. }
  split.
  - exists W. split; [|split; [|split]].
    + intros n Hn. destruct (S1 n ltac:(lia)) as (o & X & Y). destruct (W1 n Hn) as (X' & K). rewrite X' in X. unfold kstore in X.
      assert (X1 : want (W n) = contents cb lb pb bases fs' n) by congruence. assert (X2 : o = Some (W n)) by congruence. auto.
    + intros n Hn. rewrite <- !EW by lia. now apply M3.
    + rewrite <- EW by lia. exact M4.
    + rewrite <- EW by lia. exact M5.
  - intros t Ht. destruct (file_in_dec first hi t) as [(n & Hn & I)|N]; [|now apply S2].
    destruct (S1 n ltac:(lia)) as (o & X & _). rewrite (M2 n) in X by (intros Q; apply Ht; exists n; auto). rewrite kstart_in in X by lia.
    assert (X1 : contents cb lb pb bases fs n = contents cb lb pb bases fs' n) by congruence.
    symmetry. revert I. apply (proj1 (same_files cb lb pb bases fs fs' n)). exact X1.
Qed.

Lemma skip_targets fs n : skipn 3 (contents cb lb pb bases fs n) = map fs (map (target_file n) bases). Proof. reflexivity. Qed.
Lemma head_corr fs n : nth_error (contents cb lb pb bases fs n) 0 = Some (fs (frame_name cb n)). Proof. reflexivity. Qed.

Definition links_of (t : text) : Prop := exists n, first <= n <= last /\ (t = frame_name lb n \/ t = frame_name pb n).
Theorem run_again fs buf fs' nl :
  (forall n, first <= n <= hi -> file_read cb lb pb bases fs n false = Ok (R n) /\ frame_ok (R n)) ->
  (forall n, first <= n <= last -> exists g, file_write can_write cb lb pb bases fs (R n) n = Ok g /\ forall t, t <> frame_name lb n -> t <> frame_name pb n -> g t = fs t) ->
  (exists W, forall n, first <= n <= last -> writable bases (W n) /\ Kf (R n) (W n) /\ contents cb lb pb bases fs' n = want (W n)) ->
  (forall t, ~ file_in cb lb pb bases first last t -> fs' t = fs t) ->
  forward_run can_write cb lb pb bases fstep first last ([e0; e1; e2; e3], fs) = Ok ((buf, fs'), nl) ->
  (forall t, ~ links_of t -> fs' t = fs t) /\
  exists fs'', forward_run can_write cb lb pb bases fstep first last ([e0; e1; e2; e3], fs') = Ok ((buf, fs''), nl) /\ forall t, fs'' t = fs' t.
Proof.
  intros HR HW (W & WF) O H0.
  assert (TG : forall n, first <= n <= last -> fs' (frame_name cb n) = fs (frame_name cb n) /\ map fs' (map (target_file n) bases) = map fs (map (target_file n) bases)).
  { intros n Hn. assert (Hn' : first <= n <= hi) by lia. destruct (WF n Hn) as (W1 & W2 & W3). destruct (HW n Hn) as (g & G & GO). apply (write_spec _ _ _ _ _ _ _ L _ _ _ _ Hn') in G as (G1 & G2 & _).
    destruct (want_corr bases _ _ W2 G1 W1) as (X1 & X2). rewrite <- W3, <- G2 in X1, X2. rewrite !skip_targets in X2. rewrite !head_corr in X1.
    pose proof (lay_own _ _ _ _ _ _ _ L n Hn') as ND. unfold Spec_files.files_of in ND.
    inversion ND as [|? ? D1 ND1]; inversion ND1 as [|? ? D2 ND2]; inversion ND2 as [|? ? D3 ND3]; subst. split.
    - rewrite <- (GO (frame_name cb n)); [congruence| |]; intros E; apply D1; rewrite E; cbn [In]; auto.
    - rewrite <- X2. apply map_ext_in. intros t Ht. apply GO; intros ->; [apply D2; now right|contradiction]. }
  assert (RE : forall n, first <= n <= hi -> file_read cb lb pb bases fs n false = file_read cb lb pb bases fs' n false).
  { intros n Hn. destruct (Z_le_gt_dec n last) as [Q|Q].
    - destruct (TG n ltac:(lia)) as (T1 & T2). apply (read_eq_fresh _ _ _ _ _ _ _ L); auto. intros b Hb. rewrite !map_map in T2. symmetry. apply (ext_in_map T2 b Hb).
    - apply (read_eq _ _ _ _ _ _ _ L); auto. apply same_files. intros t Ht. symmetry. apply O. intros (m & Hm & I). apply (files_apart _ _ _ _ _ _ _ L n m t); auto; lia. }
  split.
  - intros t Ht. destruct (file_in_dec first last t) as [(n & Hn & I)|N]; [|auto]. destruct (TG n Hn) as (T1 & T2).
    unfold Spec_files.files_of in I. destruct I as [<-|[<-|[<-|I]]]; auto; [exfalso; apply Ht; exists n; auto|exfalso; apply Ht; exists n; auto|].
    rewrite <- map_id in I at 1. rewrite map_id in I. apply (ext_in_map T2 t I).
  - set (sim := fun a b : files => (forall n, first <= n <= hi -> (contents cb lb pb bases a n = contents cb lb pb bases b n) \/ (contents cb lb pb bases a n = contents cb lb pb bases fs n /\ contents cb lb pb bases b n = contents cb lb pb bases fs' n)) /\
      (forall t, ~ file_in cb lb pb bases first hi t -> a t = fs t /\ b t = fs' t)).
    apply (forward_sim2 frame files (file_read cb lb pb bases) (file_write can_write cb lb pb bases) fstep sim (fun n => first <= n <= hi) (fun n => first <= n <= hi)) with (b := ([e0; e1; e2; e3], fs')) in H0 as ([b'' fs''] & H & E & S1 & S2); auto.
    + cbn [fst snd] in *. subst b''. exists fs''. split; auto. intros t. destruct (file_in_dec first hi t) as [(n & Hn & I)|N].
      * assert (X : contents cb lb pb bases fs'' n = contents cb lb pb bases fs' n) by (destruct (S1 n Hn) as [X|(_ & X)]; congruence). revert I. apply (proj1 (same_files cb lb pb bases fs'' fs' n)). exact X.
      * now apply S2.
    + intros a b n (A & _) Hn. destruct (A n Hn) as [X|(X & Y)]; [now apply (read_eq _ _ _ _ _ _ _ L)|].
      rewrite (read_eq _ _ _ _ _ _ _ L a fs n n) by auto. rewrite (read_eq _ _ _ _ _ _ _ L b fs' n n) by auto. now apply RE.
    + intros a b f n a' (A & B) Hn Wa. pose proof Wa as Wa0. apply (write_spec _ _ _ _ _ _ _ L _ _ _ _ Hn) in Wa as (X1 & X2 & X3).
      destruct (write_ok _ _ _ _ _ _ _ L b f n Hn X1) as (b' & Wb & Y2 & Y3). exists b'. split; auto. unfold sim. split.
      * intros m Hm. destruct (Z.eq_dec m n) as [->|D]; [left; congruence|].
        rewrite (contents_other _ _ _ _ _ _ _ L a f n a' m Hn Hm ltac:(auto) Wa0), (contents_other _ _ _ _ _ _ _ L b f n b' m Hn Hm ltac:(auto) Wb). now apply A.
      * intros t Ht. rewrite X3, Y3 by (intros I; apply Ht; exists n; auto). now apply B.
    + intros n Hn. lia.
    + lia.
    + split; [reflexivity|]. cbn [snd]. unfold sim. split; auto.
Qed.
Theorem run_twice fs buf fs' nl :
  (forall n, first <= n <= hi -> file_read cb lb pb bases fs n false = Ok (R n) /\ frame_ok (R n)) ->
  (forall n, first <= n <= last -> exists g, file_write can_write cb lb pb bases fs (R n) n = Ok g /\ forall t, t <> frame_name lb n -> t <> frame_name pb n -> g t = fs t) ->
  forward_run can_write cb lb pb bases fstep first last ([e0; e1; e2; e3], fs) = Ok ((buf, fs'), nl) ->
  (forall t, ~ links_of t -> fs' t = fs t) /\
  exists fs'', forward_run can_write cb lb pb bases fstep first last ([e0; e1; e2; e3], fs') = Ok ((buf, fs''), nl) /\ forall t, fs'' t = fs' t.
Proof.
  intros HR HW H. pose proof H as H0. apply run_facts in H as ((W & WF & _) & O); auto. eapply run_again; eauto.
Qed.
End F4.
