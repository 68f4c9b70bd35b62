(** Forward runs depend only on the frames they read (C79). *)
From Coq Require Import Permutation.
From Verif Require Import Base Lib F64 Model_corr Model_cand Spec_cand Model_track Spec_track Spec_track2 Spec_trail
  Proof_track_search Proof_track_step Proof_track_found Prop_track Model_fb Spec_fb Proof_fb Proof_fb_run Proof_trail.
Local Open Scope Z_scope.

(** both runs raise the same exception, or both succeed with related results *)
Definition both {A B} (P : A -> B -> Prop) (r : result A) (r' : result B) : Prop :=
  match r, r' with Ok a, Ok b => P a b | Exn e, Exn e' => e = e' | _, _ => False end.
Lemma both_bind {A B A' B'} (P : A -> B -> Prop) (Q : A' -> B' -> Prop) r r' f f' :
  both P r r' -> (forall a b, P a b -> both Q (f a) (f' b)) -> both Q (bind r f) (bind r' f').
Proof. destruct r as [a|e], r' as [b|e']; cbn; intros H G; try contradiction; auto. Qed.
Lemma both_refl {A} (r : result A) : both eq r r.
Proof. destruct r; cbn; auto. Qed.
Lemma both_fold {A S S'} (P : list A -> S -> S' -> Prop) f f' l s s' : P [] s s' ->
  (forall done a rest s s', l = done ++ a :: rest -> P done s s' -> both (P (done ++ [a])) (f s a) (f' s' a)) ->
  both (P l) (foldM f l s) (foldM f' l s').
Proof.
  intros H0 HS. assert (G : forall rest done s s', l = done ++ rest -> P done s s' -> both (P l) (foldM f rest s) (foldM f' rest s')).
  { induction rest as [|a rest IH]; intros done s1 s1' E H.
    - cbn. rewrite app_nil_r in E. now subst.
    - cbn [foldM]. eapply both_bind; [eapply HS; eauto|]. intros s2 s2' H2. apply (IH (done ++ [a])); auto. rewrite <- app_assoc. exact E. }
  apply (G l []); auto.
Qed.

Section Rerun.
Variables F D : Type.
Variable parse : bool -> D -> result F.
Variable store : F -> D.
Variable fstep : F -> F -> F -> F -> result (F * F * F * Z).
Variables first last : Z.
(** the two disks give the same frames *)
Definition alike (d d' : disk D) : Prop := forall n, first <= n <= Z.max last (first + 2) -> parse false (d n) = parse false (d' n).
Definition alike_st (st st' : rstate F D) : Prop := fst st = fst st' /\ alike (snd st) (snd st').

Lemma read_alike st st' n : alike_st st st' -> first <= n <= Z.max last (first + 2) ->
  both (fun r r' => alike_st r r' /\ snd r = snd st /\ snd r' = snd st') (read_frame_at_end F D parse st n false) (read_frame_at_end F D parse st' n false).
Proof.
  destruct st as [b d], st' as [b' d']. intros (E & H) Hn. cbn [fst snd] in *. subst b'. unfold read_frame_at_end. rewrite <- (H n Hn).
  destruct (parse false (d n)); [|reflexivity]. cbn [bind]. destruct (pyset b (-1) _); [|reflexivity]. cbn. repeat split; auto.
Qed.
Lemma write_alike st st' n : alike_st st st' ->
  both (fun r r' => alike_st r r' /\ snd r n = snd r' n /\ forall m, m <> n -> snd r m = snd st m /\ snd r' m = snd st' m)
    (write_frame_from_start F D store st n) (write_frame_from_start F D store st' n).
Proof.
  destruct st as [b d], st' as [b' d']. intros (E & H). cbn [fst snd] in *. subst b'. unfold write_frame_from_start.
  destruct (pyget b 0); [|reflexivity]. cbn [bind both fst snd]. split; [|split].
  - split; auto. intros m Hm. cbn [snd]. unfold put. destruct (m =? n); [reflexivity|now apply H].
  - unfold put. now rewrite Z.eqb_refl.
  - intros m Hm. unfold put. destruct (Z.eqb_spec m n); [lia|]. auto.
Qed.
Lemma next_alike st st' : alike_st st st' -> alike_st (next F D st) (next F D st').
Proof. intros (E & H). split; auto. cbn [next fst]. now rewrite E. Qed.
Lemma loop_alike st st' nl step : first <= step < last -> alike_st st st' ->
  both (fun r r' => alike_st (fst r) (fst r') /\ snd r = snd r' /\ snd (fst r) step = snd (fst r') step /\
          forall m, m <> step -> snd (fst r) m = snd st m /\ snd (fst r') m = snd st' m)
    (trackcorr_c_loop F D parse store fstep last (st, nl) step) (trackcorr_c_loop F D parse store fstep last (st', nl) step).
Proof.
  intros Hs A. destruct st as [b d], st' as [b' d']. pose proof A as (E & _). cbn [fst] in E. subst b'. unfold trackcorr_c_loop.
  destruct (pyget b 0) as [a0|]; [|reflexivity]. destruct (pyget b 1) as [a1|]; [|reflexivity]. destruct (pyget b 2) as [a2|]; [|reflexivity]. destruct (pyget b 3) as [a3|]; [|reflexivity].
  cbn [bind]. destruct (fstep a0 a1 a2 a3) as [[[[c1 c2] c3] n]|]; [|reflexivity]. cbn [bind].
  destruct (pyset b 1 c1) as [b1|]; [|reflexivity]. cbn [bind]. destruct (pyset b1 2 c2) as [b2|]; [|reflexivity]. cbn [bind]. destruct (pyset b2 3 c3) as [b3|]; [|reflexivity]. cbn [bind].
  assert (A3 : alike_st (b3, d) (b3, d')) by (split; [reflexivity|apply A]).
  eapply both_bind; [apply write_alike, next_alike, A3|]. cbn beta. intros st1 st1' (A1 & W & O). cbn [next snd] in O.
  eapply (both_bind (fun r r' => alike_st r r' /\ snd r = snd st1 /\ snd r' = snd st1')).
  - destruct (Z.ltb_spec step (last - 2)); [apply read_alike; auto; lia|]. cbn. auto.
  - intros st2 st2' (A2 & E2 & E2'). cbn [both fst snd]. rewrite E2, E2'. split; auto.
Qed.
Theorem forward_alike b d d' : alike d d' ->
  both (fun r r' => fst (fst r) = fst (fst r') /\ snd r = snd r' /\ forall s, first <= s <= last -> snd (fst r) s = snd (fst r') s)
    (full_forward F D parse store fstep first last (b, d)) (full_forward F D parse store fstep first last (b, d')).
Proof.
  intros A. unfold full_forward. apply (both_bind alike_st).
  - unfold track_forward_start. apply (both_bind alike_st).
    + apply (both_fold (fun _ => alike_st)); [split; auto|]. intros done n rest s s' E H. apply zrange_split in E as (_ & Hn & _).
      eapply both_bind; [apply read_alike; [exact H|lia]|]. intros r r' (H' & _). cbn [both]. now apply next_alike.
    + intros st st' (E & H). cbn [both]. split; auto. cbn [prev fst]. now rewrite E.
  - intros st st' H. set (LP := fun r r' : rstate F D * Z => alike_st (fst r) (fst r') /\ snd r = snd r' /\ forall s, first <= s < last -> snd (fst r) s = snd (fst r') s).
    apply (both_bind LP).
    + assert (X : both (fun r r' : rstate F D * Z => alike_st (fst r) (fst r') /\ snd r = snd r' /\ forall s, first <= s < first + Z.of_nat (length (zrange first last)) -> snd (fst r) s = snd (fst r') s)
         (foldM (trackcorr_c_loop F D parse store fstep last) (zrange first last) (st, 0)) (foldM (trackcorr_c_loop F D parse store fstep last) (zrange first last) (st', 0))).
      { apply (both_fold (fun done (r r' : rstate F D * Z) => alike_st (fst r) (fst r') /\ snd r = snd r' /\ forall s, first <= s < first + Z.of_nat (length done) -> snd (fst r) s = snd (fst r') s)).
        - cbn [fst snd length]. split; auto. split; auto. lia.
        - intros done n rest [s nl] [s' nl'] E (I1 & I2 & I3). cbn [fst snd] in *. subst nl'. apply zrange_split in E as (_ & Hn & En).
          pose proof (loop_alike s s' nl n Hn I1) as L.
          destruct (trackcorr_c_loop F D parse store fstep last (s, nl) n) as [[r m]|], (trackcorr_c_loop F D parse store fstep last (s', nl) n) as [[r' m']|]; cbn [both fst snd] in *; try contradiction; auto.
          destruct L as (L1 & L2 & L3 & L4). split; auto. split; auto. intros k Hk. rewrite app_length in Hk. cbn [length] in Hk.
          destruct (Z.eq_dec k n) as [->|Nk]; [exact L3|]. destruct (L4 k Nk) as (-> & ->). apply I3. lia. }
      rewrite zrange_length in X.
      destruct (foldM _ _ (st, 0)), (foldM _ _ (st', 0)); cbn [both] in *; auto. destruct X as (X1 & X2 & X3). split; auto. split; auto. intros k Hk. apply X3. lia.
    + intros [s nl] [s' nl'] (H1 & H2 & H3). cbn [fst snd] in *. subst nl'. unfold trackcorr_c_finish. destruct (last - first =? 0); [reflexivity|].
      eapply both_bind; [apply write_alike, next_alike, H1|]. intros t t' (A1 & W & O). cbn [both fst snd] in *. split; [apply A1|]. split; auto.
      intros k Hk. destruct (Z.eq_dec k last) as [->|Nk]; auto. destruct (O k Nk) as (O1 & O2). etransitivity; [exact O1|]. etransitivity; [|symmetry; exact O2]. cbn [next snd]. apply H3. lia.
Qed.
End Rerun.

(** ---- slot 0 does not matter as long as nobody has a predecessor ---- *)
Lemma foldM_ext_inv {S A} (P : list A -> S -> Prop) (f g : S -> A -> result S) l s : P [] s ->
  (forall done a rest s, l = done ++ a :: rest -> P done s -> f s a = g s a) ->
  (forall done a rest s s1, l = done ++ a :: rest -> P done s -> f s a = Ok s1 -> P (done ++ [a]) s1) ->
  foldM f l s = foldM g l s.
Proof.
  intros H0 HE HS. assert (G : forall rest done s, l = done ++ rest -> P done s -> foldM f rest s = foldM g rest s).
  { induction rest as [|a rest IH]; intros done s1 E H; [reflexivity|]. cbn [foldM]. rewrite <- (HE _ _ _ _ E H).
    destruct (f s1 a) as [s2|e] eqn:Ef; [|reflexivity]. cbn [bind]. apply (IH (done ++ [a])); [rewrite <- app_assoc; exact E|]. eapply HS; eauto. }
  apply (G l []); auto.
Qed.

Section Slot0.
Variable psort : list (f64 * Z) -> list (f64 * Z).
Variable pixdist : f64 -> f64 -> f64 -> f64 -> f64.
Variable ncam : nat.
Hypothesis ncam_ok : (1 <= ncam <= 4)%nat.
Variables imx imy : Z.
Variable ptp : Z -> vec -> f64 * f64.
Variable quader : Z -> vec -> f64 * f64 * f64 * f64.
Variable moving : vec -> vec -> vec.
Variable extrap : vec -> vec -> vec -> vec.
Variable sub : vec -> vec -> vec.
Variable norm : vec -> vec -> f64.
Variable angle : vec -> vec -> vec -> f64 * f64.
Variable flat : Z -> f64 -> f64 -> f64 * f64.
Variable point : list (f64 * f64) -> vec.
Variable tp : tpar.
Variable vl : vol.
Local Notation fstep := (trackcorr_step psort pixdist (Z.of_nat ncam) imx imy ptp quader moving extrap sub norm angle flat point tp vl).

Lemma step_slot0 a a' b1 b2 b3 : frame_ok b2 -> frame_ok b3 -> (forall p, In p (fr_path b1) -> p_prev p < 0) ->
  fstep a b1 b2 b3 = fstep a' b1 b2 b3.
Proof.
  intros F2 F3 HP. unfold trackcorr_step. f_equal.
  apply (foldM_ext_inv (fun _ st => let '(c1, c2, c3) := st in frame_ok c2 /\ frame_ok c3 /\ forall p, In p (fr_path c1) -> p_prev p < 0)); auto.
  - intros done h rest [[c1 c2] c3] E (G2 & G3 & GP). apply zrange_split in E as (_ & Hh & _). unfold track_one.
    destruct (pyget (fr_path c1) h) as [p|] eqn:Ep; [|reflexivity]. cbn [bind]. destruct (pyget (fr_corr c1) h); [|reflexivity]. cbn [bind].
    apply pyget_ok_iff in Ep; [|lia]. apply nth_error_In, GP in Ep. cbn [reset_inlist p_prev]. destruct (Z.leb_spec 0 (p_prev p)); [lia|]. reflexivity.
  - intros done h rest [[c1 c2] c3] [[e1 e2] e3] E (G2 & G3 & GP) Hs. apply zrange_split in E as (_ & Hh & _).
    apply (track_one_ok pixdist ncam ncam_ok) in Hs as (B1 & B2 & _ & _ & _ & _ & (p & q & Hp & Hq & (_ & Sc & _) & _)); auto; [|lia].
    split; auto. split; auto. intros r Hr. rewrite Hq in Hr. apply In_nth_error in Hr as (i & Hi).
    assert (Lp : (Z.to_nat h < length (fr_path c1))%nat) by (apply nth_error_Some; congruence).
    destruct (Nat.eq_dec i (Z.to_nat h)) as [->|N].
    + rewrite nth_error_upd_eq in Hi by auto. injection Hi as <-. rewrite Sc. apply GP. eapply nth_error_In; eauto.
    + rewrite nth_error_upd_neq in Hi by auto. apply GP. eapply nth_error_In; eauto.
Qed.

Variable D : Type.
Variable parse : bool -> D -> result frame.
Variable store : frame -> D.
Variables first last : Z.
(** every frame that is read is in order and has no links *)
Hypothesis reads : forall (d : D) f, parse false d = Ok f -> frame_ok f /\ forall p, In p (fr_path f) -> fresh_particle p.

Lemma prime_same e0 e1 e2 e3 f0 f1 f2 f3 (d : disk D) :
  both (fun r r' => exists b c e, r = ([e2; b; c; e], d) /\ r' = ([f2; b; c; e], d) /\
      parse false (d first) = Ok b /\ parse false (d (first + 1)) = Ok c /\ parse false (d (first + 2)) = Ok e)
    (track_forward_start frame D parse first ([e0; e1; e2; e3], d)) (track_forward_start frame D parse first ([f0; f1; f2; f3], d)).
Proof.
  unfold track_forward_start. rewrite (zrange_cons first) by lia. rewrite (zrange_cons (first + 1)) by lia.
  rewrite (zrange_cons (first + 1 + 1)) by lia. rewrite (zrange_empty (first + 1 + 1 + 1)) by lia.
  replace (first + 1 + 1) with (first + 2) by lia.
  assert (L : forall (a b c e : frame) n, read_frame_at_end frame D parse ([a; b; c; e], d) n false = do f <- parse false (d n); Ok ([a; b; c; f], d)).
  { intros. unfold read_frame_at_end. destruct (parse false (d n)); reflexivity. }
  cbn [foldM]. rewrite !L.
  destruct (parse false (d first)) as [b|] eqn:E1; [|exact eq_refl]. cbn [bind]. unfold next at 1. unfold next at 3. cbn [fst snd fb_next app]. rewrite !L.
  destruct (parse false (d (first + 1))) as [c|] eqn:E2; [|exact eq_refl]. cbn [bind]. unfold next at 1. unfold next at 2. cbn [fst snd fb_next app]. rewrite !L.
  destruct (parse false (d (first + 2))) as [e|] eqn:E3; [|exact eq_refl].
  cbn [bind]. unfold next. cbn [fst snd fb_next app]. unfold prev. cbn [fst snd fb_prev rev app both]. exists b, c, e. auto 10.
Qed.
Theorem forward_buffer e0 e1 e2 e3 f0 f1 f2 f3 (d : disk D) : last = first + 1 \/ first + 3 <= last ->
  both (fun r r' => snd r = snd r' /\ snd (fst r) = snd (fst r'))
    (full_forward frame D parse store fstep first last ([e0; e1; e2; e3], d))
    (full_forward frame D parse store fstep first last ([f0; f1; f2; f3], d)).
Proof.
  intros Hl. unfold full_forward. eapply both_bind; [apply prime_same|].
  intros r r' (b & c & e & -> & -> & Pb & Pc & Pe).
  rewrite (zrange_cons first last) by lia. cbn [foldM].
  destruct (reads _ _ Pb) as (Fb & Gb). destruct (reads _ _ Pc) as (Fc & Gc). destruct (reads _ _ Pe) as (Fe & Ge).
  set (L := trackcorr_c_loop frame D parse store fstep last).
  assert (X : both (fun r r' : rstate frame D * Z => snd r = snd r' /\ snd (fst r) = snd (fst r') /\
       if last =? first + 1 then exists a b c g g', fst (fst r) = [a; b; c; g] /\ fst (fst r') = [a; b; c; g'] else fst r = fst r')
     (L (([e2; b; c; e], d), 0) first) (L (([f2; b; c; e], d), 0) first)).
  { unfold L, trackcorr_c_loop.
    change (pyget [e2; b; c; e] 0) with (Ok e2). change (pyget [e2; b; c; e] 1) with (Ok b). change (pyget [e2; b; c; e] 2) with (Ok c). change (pyget [e2; b; c; e] 3) with (Ok e).
    change (pyget [f2; b; c; e] 0) with (Ok f2). change (pyget [f2; b; c; e] 1) with (Ok b). change (pyget [f2; b; c; e] 2) with (Ok c). change (pyget [f2; b; c; e] 3) with (Ok e).
    cbn [bind]. rewrite (step_slot0 e2 f2) by (auto; intros p Hp; apply Gb in Hp as (-> & _); reflexivity).
    destruct (fstep f2 b c e) as [[[[b' c'] e'] n]|]; [|reflexivity]. cbn [bind].
    change (pyset [e2; b; c; e] 1 b') with (Ok [e2; b'; c; e]). cbn [bind]. change (pyset [e2; b'; c; e] 2 c') with (Ok [e2; b'; c'; e]). cbn [bind]. change (pyset [e2; b'; c'; e] 3 e') with (Ok [e2; b'; c'; e']). cbn [bind].
    change (pyset [f2; b; c; e] 1 b') with (Ok [f2; b'; c; e]). cbn [bind]. change (pyset [f2; b'; c; e] 2 c') with (Ok [f2; b'; c'; e]). cbn [bind]. change (pyset [f2; b'; c'; e] 3 e') with (Ok [f2; b'; c'; e']). cbn [bind].
    unfold next. cbn [fst snd fb_next app]. unfold write_frame_from_start. change (pyget [b'; c'; e'; e2] 0) with (Ok b'). change (pyget [b'; c'; e'; f2] 0) with (Ok b'). cbn [bind].
    destruct (Z.eqb_spec last (first + 1)) as [El|Nl].
    - destruct (Z.ltb_spec first (last - 2)); [lia|]. cbn [bind both fst snd]. split; auto. split; auto. exists b', c', e', e2, f2. auto.
    - destruct (Z.ltb_spec first (last - 2)); [|lia]. unfold read_frame_at_end. destruct (parse false (put D d first (store b') (first + 3))) as [g|]; [|reflexivity]. cbn [bind].
      change (pyset [b'; c'; e'; e2] (-1) g) with (Ok [b'; c'; e'; g]). change (pyset [b'; c'; e'; f2] (-1) g) with (Ok [b'; c'; e'; g]). cbn [bind both fst snd]. auto. }
  eapply both_bind.
  - eapply both_bind; [exact X|]. intros [st nl] [st' nl'] (Y1 & Y2 & Y3). cbn [fst snd] in *. subst nl'.
    instantiate (1 := fun r r' : rstate frame D * Z => snd r = snd r' /\ snd (fst r) = snd (fst r') /\
       if last =? first + 1 then exists a b c g g', fst (fst r) = [a; b; c; g] /\ fst (fst r') = [a; b; c; g'] else fst r = fst r').
    destruct (Z.eqb_spec last (first + 1)) as [->|Nl].
    + rewrite zrange_empty by lia. cbn [foldM both fst snd]. auto.
    + subst st'. destruct (foldM L (zrange (first + 1) last) (st, nl)); cbn [both]; auto.
  - intros [st nl] [st' nl'] (Y1 & Y2 & Y3). cbn [fst snd] in *. subst nl'. destruct (Z.eqb_spec last (first + 1)) as [->|Nl].
    + destruct Y3 as (a1 & a2 & a3 & g & g' & X1 & X2). destruct st as [s1 s2], st' as [t1 t2]. cbn [fst snd] in *. subst s1 t1 t2.
      unfold trackcorr_c_finish. destruct (_ =? 0); [reflexivity|]. unfold next. cbn [fst snd fb_next app]. unfold write_frame_from_start.
      change (pyget [a2; a3; g; a1] 0) with (Ok a2). change (pyget [a2; a3; g'; a1] 0) with (Ok a2). cbn. auto.
    + subst st'. destruct (trackcorr_c_finish frame D store first last st last); cbn; auto.
Qed.
End Slot0.
