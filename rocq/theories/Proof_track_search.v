From Coq Require Import Sorted.
From Verif Require Import Base F64 Model_corr Model_cand Spec_cand Proof_cand Model_track Spec_track.
Local Open Scope Z_scope.

(** target [j] is selected by [sel], strictly inside the clipped window, at distance [d] *)
Definition hit (pixdist : f64 -> f64 -> f64 -> f64 -> f64) (sel : target -> bool) (nf : list target)
    (cx cy : f64) (w : window) (j : Z) (d : f64) : Prop :=
  exists t, 0 <= j /\ nth_error nf (Z.to_nat j) = Some t /\ sel t = true /\ inside w t = true /\
            d = pixdist cx cy (t_x t) (t_y t).

Lemma flt_asym a b : flt a b = true -> flt b a = false.
Proof. intros H. destruct (flt b a) eqn:E; auto. pose proof (flt_trans _ _ _ H E) as C. now rewrite flt_irrefl in C. Qed.
(** ---- scanning an y-sorted list ---- *)
Section Scan.
Context {S : Type}.
Variable pixdist : f64 -> f64 -> f64 -> f64 -> f64.
Variable sel : target -> bool.
Variable cx cy : f64.
Variable w : window.
Variable upd : S -> Z -> f64 -> S.

Definition gstep (nf : list target) (j : Z) (s : S) : ctl S :=
  tryC (pyget nf j) (fun t =>
    if sel t then
      if fgt (t_y t) (w_ymax w) then Ret s
      else if inside w t then Next (upd s j (pixdist cx cy (t_x t) (t_y t)))
      else Next s
    else Next s).

Fixpoint scan (j : Z) (l : list target) (s : S) : S :=
  match l with
  | [] => s
  | t :: l => scan (j + 1) l (if sel t && inside w t then upd s j (pixdist cx cy (t_x t) (t_y t)) else s)
  end.

Lemma scan_none j l s : (forall t, In t l -> inside w t = false) -> scan j l s = s.
Proof.
  revert j s; induction l as [|t l IH]; intros j s H; simpl; auto.
  rewrite (H t (or_introl eq_refl)), andb_false_r. apply IH. intros; apply H; simpl; auto.
Qed.
Lemma scan_app j l1 l2 s : scan j (l1 ++ l2) s = scan (j + Z.of_nat (length l1)) l2 (scan j l1 s).
Proof.
  revert j s; induction l1 as [|t l1 IH]; intros j s; cbn [app scan length].
  - now rewrite Z.add_0_r.
  - rewrite IH. f_equal. lia.
Qed.

Lemma scan_loop nf : y_ascending nf -> forall rest pre s, nf = pre ++ rest ->
  runC (forC (zrange (Z.of_nat (length pre)) (Z.of_nat (length nf))) (gstep nf) s) =
  Ok (scan (Z.of_nat (length pre)) rest s).
Proof.
  intros HA. induction rest as [|t rest IH]; intros pre s E.
  - rewrite app_nil_r in E. subst pre. rewrite zrange_empty by lia. reflexivity.
  - assert (Hlen : (length nf = length pre + Datatypes.S (length rest))%nat) by (rewrite E, app_length; reflexivity).
    rewrite zrange_cons by lia. cbn [forC]. unfold gstep at 1.
    rewrite (pyget_nonneg nf _ t) by (try lia; rewrite E, Nat2Z.id, nth_error_app2, Nat.sub_diag by lia; reflexivity).
    cbn [tryC].
    assert (N : forall s', runC (forC (zrange (Z.of_nat (length pre) + 1) (Z.of_nat (length nf))) (gstep nf) s') =
                Ok (scan (Z.of_nat (length pre) + 1) rest s')).
    { intros s'. specialize (IH (pre ++ [t]) s'). rewrite app_length in IH. cbn [length] in IH.
      replace (Z.of_nat (length pre + 1)) with (Z.of_nat (length pre) + 1) in IH by lia.
      apply IH. rewrite <- app_assoc. exact E. }
    cbn [scan]. destruct (sel t) eqn:Es; cbn [andb]; [|cbn [bindC]; apply N].
    destruct (fgt (t_y t) (w_ymax w)) eqn:Eg.
    + cbn [bindC runC].
      assert (F : forall t', In t' (t :: rest) -> inside w t' = false).
      { intros t' [<-|Hin]; unfold inside.
        - apply andb_false_intro2. apply flt_asym; auto.
        - apply andb_false_intro2. apply flt_asym.
          eapply flt_fle_trans; [exact Eg|].
          apply In_nth_error in Hin as (k & Hk).
          apply (HA (length pre) (length pre + Datatypes.S k)%nat); [lia| |]; rewrite nth_error_map, E.
          + rewrite nth_error_app2, Nat.sub_diag by lia. reflexivity.
          + rewrite nth_error_app2 by lia. replace (length pre + Datatypes.S k - length pre)%nat with (Datatypes.S k) by lia.
            cbn [nth_error]. now rewrite Hk. }
      rewrite (F t (or_introl eq_refl)). rewrite scan_none; [reflexivity|]. intros; apply F; simpl; auto.
    + destruct (inside w t); cbn [bindC]; apply N.
Qed.

Lemma scan_from nf num : num = Z.of_nat (length nf) -> y_ascending nf -> popcount (num / 2) <= 11 ->
  forall s, exists k, pix_start nf num (w_ymin w) = Ok k /\
  runC (forC (zrange k num) (gstep nf) s) = Ok (scan 0 nf s).
Proof.
  intros Hn HA Hpc s.
  destruct (start_in_bounds_lim (map t_y nf) num (w_ymin w)) as (k & Ek & K1 & K2);
    [lia|rewrite map_length; lia|].
  change (start_lim (map t_y nf) num (w_ymin w)) with (pix_start nf num (w_ymin w)) in Ek.
  exists k. split; auto.
  assert (K3 : k <= num).
  { destruct (Z.eq_dec num 0); [|lia].
    destruct nf; [|simpl in *; lia]. rewrite e in *. vm_compute in Ek. inversion Ek. lia. }
  pose proof (start_ok_lim (map t_y nf) num (w_ymin w) k ltac:(rewrite map_length; lia) HA Hpc Ek) as B.
  pose proof (scan_loop nf HA (skipn (Z.to_nat k) nf) (firstn (Z.to_nat k) nf) s (eq_sym (firstn_skipn _ _))) as L.
  rewrite firstn_length_le in L by lia. rewrite Z2Nat.id, <- Hn in L by lia. rewrite L.
  rewrite <- (firstn_skipn (Z.to_nat k) nf) at 2. rewrite scan_app.
  rewrite firstn_length_le by lia. rewrite Z2Nat.id by lia.
  rewrite (scan_none 0); [reflexivity|].
  intros t Ht. apply In_nth_error in Ht as (i & Hi).
  assert (Hik : (i < Z.to_nat k)%nat).
  { assert (i < length (firstn (Z.to_nat k) nf))%nat by (apply nth_error_Some; congruence).
    rewrite firstn_length in H. lia. }
  assert (En : nth_error nf i = Some t).
  { rewrite <- (firstn_skipn (Z.to_nat k) nf). rewrite nth_error_app1; auto. apply nth_error_Some. congruence. }
  assert (Hb : flt (t_y t) (w_ymin w) = true).
  { apply (B (Z.of_nat i)); [lia|]. rewrite Nat2Z.id, nth_error_map, En. reflexivity. }
  unfold inside. destruct (flt (w_ymin w) (t_y t)) eqn:Ex; [|now rewrite andb_false_r].
  pose proof (flt_trans _ _ _ Hb Ex) as C. now rewrite flt_irrefl in C.
Qed.

(** invariant rule for scan *)
Lemma scan_inv nf (I : Z -> S -> Prop) s :
  I 0 s ->
  (forall j t s, 0 <= j -> nth_error nf (Z.to_nat j) = Some t -> I j s ->
     I (j + 1) (if sel t && inside w t then upd s j (pixdist cx cy (t_x t) (t_y t)) else s)) ->
  I (Z.of_nat (length nf)) (scan 0 nf s).
Proof.
  intros H0 Hs.
  assert (G : forall rest pre s, nf = pre ++ rest -> I (Z.of_nat (length pre)) s ->
              I (Z.of_nat (length nf)) (scan (Z.of_nat (length pre)) rest s)).
  { induction rest as [|t rest IH]; intros pre s' E HI; cbn [scan].
    - rewrite app_nil_r in E. now subst.
    - specialize (IH (pre ++ [t])). rewrite app_length in IH. cbn [length] in IH.
      replace (Z.of_nat (length pre + 1)) with (Z.of_nat (length pre) + 1) in IH by lia.
      apply IH; [now rewrite <- app_assoc|]. apply Hs; auto; [lia|].
      rewrite E, Nat2Z.id, nth_error_app2, Nat.sub_diag by lia. reflexivity. }
  apply (G nf []); auto.
Qed.
End Scan.

(** ---- the four best ---- *)
Definition pad (l : list (Z * f64)) : best4 :=
  match l with
  | [] => ((-1, f1e20), (-1, f1e20), (-1, f1e20), (-1, f1e20))
  | [a] => (a, (-1, f1e20), (-1, f1e20), (-1, f1e20))
  | [a; b] => (a, b, (-1, f1e20), (-1, f1e20))
  | [a; b; c] => (a, b, c, (-1, f1e20))
  | a :: b :: c :: d :: _ => (a, b, c, d)
  end.
Fixpoint ins (l : list (Z * f64)) (j : Z) (d : f64) : list (Z * f64) :=
  match l with
  | [] => [(j, d)]
  | q :: t => if flt d (snd q) then (j, d) :: l else if flt (snd q) d then q :: ins t j d else l
  end.

Definition incr (l : list (Z * f64)) : Prop := StronglySorted (fun a b => flt (snd a) (snd b) = true) l.


Lemma flt_lower a b d : flt a b = true -> flt a d = false -> is_nan d = false -> flt d b = true.
Proof.
  intros H1 H2 Hd. destruct (flt_not_nan _ _ H1) as (Ha & Hb).
  apply (flt_false_fle a d Ha Hd) in H2. eapply fle_flt_trans; eauto.
Qed.

Ltac fo :=
  repeat match goal with
  | H : flt ?a ?b = true, H' : flt ?a ?d = false, N : is_nan ?d = false |- _ =>
      lazymatch goal with
      | _ : flt d b = true |- _ => fail
      | _ => pose proof (flt_lower a b d H H' N)
      end
  | H : flt ?a ?b = true, H' : flt ?b ?c = true |- _ =>
      lazymatch goal with
      | _ : flt a c = true |- _ => fail
      | _ => pose proof (flt_trans a b c H H')
      end
  end;
  repeat match goal with
  | H : flt ?a ?b = true |- context [flt ?b ?a] => rewrite (flt_asym a b H)
  | H : flt ?a ?b = true |- context [flt ?a ?b] => rewrite H
  | H : flt ?a ?b = false |- context [flt ?a ?b] => rewrite H
  end; cbn [andb fst snd pad firstn ins]; auto.

Lemma insert_pad l j d : (length l <= 4)%nat -> incr l -> (forall q, In q l -> flt (snd q) f1e20 = true) ->
  flt d f1e20 = true ->
  best4_insert (pad l) j d = pad (firstn 4 (ins l j d)).
Proof.
  intros HL HI HB Hd. destruct (flt_not_nan _ _ Hd) as (Nd & _).
  assert (NN : flt f1e20 d = false) by now apply flt_asym.
  assert (NF : flt f1e20 f1e20 = false) by apply flt_irrefl.
  destruct l as [|q1 [|q2 [|q3 [|q4 [|q5 l]]]]]; cbn [length] in HL; try lia; unfold best4_insert; cbn [pad fst snd ins firstn].
  - now rewrite Hd.
  - destruct (flt d (snd q1)) eqn:E1; [reflexivity|]. rewrite Hd, NN.
    destruct (flt (snd q1) d) eqn:E2; cbn [andb]; reflexivity.
  - inversion HI as [|x y HI1 HF1]; subst. inversion HF1 as [|x y H12 _]; subst.
    destruct (flt d (snd q1)) eqn:E1; [reflexivity|].
    destruct (flt (snd q1) d) eqn:E2; cbn [andb].
    + destruct (flt d (snd q2)) eqn:E3; [reflexivity|]. rewrite Hd, NN.
      destruct (flt (snd q2) d) eqn:E4; reflexivity.
    + fo.
  - inversion HI as [|x y HI1 HF1]; subst. inversion HI1 as [|x y HI2 HF2]; subst.
    inversion HF1 as [|x y H12 HF1']; subst. inversion HF1' as [|x y H13 _]; subst. inversion HF2 as [|x y H23 _]; subst.
    destruct (flt d (snd q1)) eqn:E1; [reflexivity|].
    destruct (flt (snd q1) d) eqn:E2; cbn [andb].
    + destruct (flt d (snd q2)) eqn:E3; [reflexivity|].
      destruct (flt (snd q2) d) eqn:E4; cbn [andb].
      * destruct (flt d (snd q3)) eqn:E5; [reflexivity|]. rewrite Hd.
        destruct (flt (snd q3) d) eqn:E6; reflexivity.
      * fo.
    + fo.
  - inversion HI as [|x y HI1 HF1]; subst. inversion HI1 as [|x y HI2 HF2]; subst. inversion HI2 as [|x y HI3 HF3]; subst.
    inversion HF1 as [|x y H12 HF1']; subst. inversion HF1' as [|x y H13 HF1'']; subst. inversion HF1'' as [|x y H14 _]; subst.
    inversion HF2 as [|x y H23 HF2']; subst. inversion HF2' as [|x y H24 _]; subst. inversion HF3 as [|x y H34 _]; subst.
    destruct (flt d (snd q1)) eqn:E1; [reflexivity|].
    destruct (flt (snd q1) d) eqn:E2; cbn [andb].
    + destruct (flt d (snd q2)) eqn:E3; [reflexivity|].
      destruct (flt (snd q2) d) eqn:E4; cbn [andb].
      * destruct (flt d (snd q3)) eqn:E5; [reflexivity|].
        destruct (flt (snd q3) d) eqn:E6; cbn [andb].
        -- destruct (flt d (snd q4)) eqn:E7; [reflexivity|].
           destruct (flt (snd q4) d) eqn:E8; reflexivity.
        -- fo.
      * fo.
    + fo.
Qed.

(** facts about ins *)
Lemma ins_In l j d q : In q (ins l j d) -> q = (j, d) \/ In q l.
Proof.
  induction l as [|a l IH]; cbn [ins].
  - intros [<-|[]]; auto.
  - destruct (flt d (snd a)); [intros [<-|H]; auto|].
    destruct (flt (snd a) d); [intros [<-|H]; [right; left; auto|destruct (IH H); [auto|right; right; auto]]|auto].
Qed.
Lemma ins_incr l j d : incr l -> incr (ins l j d).
Proof.
  induction 1 as [|a l HS IH HF]; cbn [ins]; [repeat constructor|].
  destruct (flt d (snd a)) eqn:E1.
  - constructor; [constructor; auto|]. constructor; auto. rewrite Forall_forall in *. intros q Hq.
    eapply flt_trans; [exact E1|]. now apply HF.
  - destruct (flt (snd a) d) eqn:E2; [|constructor; auto].
    constructor; auto. rewrite Forall_forall in *. intros q Hq.
    apply ins_In in Hq as [->|Hq]; auto.
Qed.
(** everything covered before stays covered, and the new one is *)
Definition covers (l : list (Z * f64)) (j : Z) (d : f64) : Prop :=
  exists q, In q l /\ feq (snd q) d = true /\ fst q <= j.
Lemma feq_refl a : is_nan a = false -> feq a a = true.
Proof. intros. apply feq_key. auto. Qed.
Lemma ins_keep l j d q : In q l -> In q (ins l j d).
Proof.
  induction l as [|a l IH]; cbn [ins]; [intros []|]. intros H.
  destruct (flt d (snd a)); [right; auto|]. destruct (flt (snd a) d); auto.
  destruct H as [<-|H]; [left; auto|right; auto].
Qed.
Lemma ins_length l j d : (length l <= length (ins l j d))%nat.
Proof.
  induction l as [|a l IH]; cbn [ins length]; [lia|].
  destruct (flt d (snd a)); cbn [length]; [lia|]. destruct (flt (snd a) d); cbn [length]; lia.
Qed.
Lemma ins_covers l j d : is_nan d = false -> (forall q, In q l -> is_nan (snd q) = false /\ fst q <= j) ->
  covers (ins l j d) j d.
Proof.
  intros Hd. induction l as [|a l IH]; intros H; cbn [ins].
  - exists (j, d). split; [left; auto|]. split; [now apply feq_refl|]. simpl; lia.
  - destruct (flt d (snd a)) eqn:E1.
    { exists (j, d). split; [left; auto|]. split; [now apply feq_refl|]. simpl; lia. }
    destruct (flt (snd a) d) eqn:E2.
    + destruct IH as (q & Q1 & Q2); [intros; apply H; right; auto|].
      exists q. split; auto. right; auto.
    + destruct (H a (or_introl eq_refl)) as (Na & La). exists a. split; [left; auto|]. split; auto.
      apply feq_key. split; auto. split; auto.
      apply (flt_false_fle (snd a) d Na Hd) in E2. apply (flt_false_fle d (snd a) Hd Na) in E1.
      apply fle_kle in E1 as (_ & _ & K1). apply fle_kle in E2 as (_ & _ & K2).
      destruct (key (snd a)) as [[x1 x2] x3], (key d) as [[y1 y2] y3]. unfold kle, klt in *.
      destruct K1 as [K1|K1]; [|congruence]. destruct K2 as [K2|K2]; [|congruence]. lia.
Qed.
Lemma feq_flt a b c : feq a b = true -> flt a c = flt b c.
Proof.
  intros H. apply feq_key in H as (Na & Nb & K).
  destruct (flt a c) eqn:E, (flt b c) eqn:E'; auto.
  - apply flt_klt in E as (_ & Nc & L). rewrite K in L.
    assert (flt b c = true) by (apply flt_klt; auto). congruence.
  - apply flt_klt in E' as (_ & Nc & L). rewrite <- K in L.
    assert (flt a c = true) by (apply flt_klt; auto). congruence.
Qed.
Lemma feq_flt_r a b c : feq a b = true -> flt c a = flt c b.
Proof.
  intros H. apply feq_key in H as (Na & Nb & K).
  destruct (flt c a) eqn:E, (flt c b) eqn:E'; auto.
  - apply flt_klt in E as (Nc & _ & L). rewrite K in L.
    assert (flt c b = true) by (apply flt_klt; auto). congruence.
  - apply flt_klt in E' as (Nc & _ & L). rewrite <- K in L.
    assert (flt c a = true) by (apply flt_klt; auto). congruence.
Qed.

(** truncating to four keeps coverage or shows four nearer ones *)
Lemma trunc_covers l j d : incr l -> covers l j d ->
  covers (firstn 4 l) j d \/ (length (firstn 4 l) = 4%nat /\ forall q, In q (firstn 4 l) -> flt (snd q) d = true).
Proof.
  intros HI (q & Hq & Q). rewrite <- (firstn_skipn 4 l) in Hq. apply in_app_or in Hq as [Hq|Hq].
  - left. exists q. auto.
  - right. assert (HL : (4 < length l)%nat).
    { destruct (le_lt_dec (length l) 4); auto. rewrite skipn_all2 in Hq by auto. destruct Hq. }
    split; [rewrite firstn_length; lia|]. intros r Hr.
    rewrite <- (feq_flt_r (snd q) d) by tauto.
    rewrite <- (firstn_skipn 4 l) in HI. revert HI Hr Hq. generalize (firstn 4 l) (skipn 4 l).
    induction l0 as [|a l0 IH]; intros l1 HI Hr Hq; [destruct Hr|]. destruct Hr as [<-|Hr].
    + inversion HI as [|x y _ HF]; subst. rewrite Forall_forall in HF. apply HF. apply in_or_app; auto.
    + inversion HI; subst. eapply IH; eauto.
Qed.
Lemma firstn_incr n l : incr l -> incr (firstn n l).
Proof.
  revert n. induction l as [|a l IH]; intros [|n] H; cbn [firstn]; try constructor.
  - inversion H; subst. apply IH; auto.
  - inversion H; subst. rewrite Forall_forall in *. intros q Hq. apply H3.
    rewrite <- (firstn_skipn n l). apply in_or_app; auto.
Qed.

Lemma pad_list l : (length l <= 4)%nat ->
  (let '(q1, q2, q3, q4) := pad l in [fst q1; fst q2; fst q3; fst q4]) = map fst l ++ repeat (-1) (4 - length l).
Proof. destruct l as [|q1 [|q2 [|q3 [|q4 [|q5 l]]]]]; cbn [length]; intros; try lia; reflexivity. Qed.

Section Pix.
Variable pixdist : f64 -> f64 -> f64 -> f64 -> f64.

Theorem candsearch_exact nf num cx cy dl dr du dd imx imy :
  num = Z.of_nat (length nf) -> y_ascending nf -> popcount (num / 2) <= 11 ->
  let w := clip_window cx cy dl dr du dd imx imy in
  (forall j d, hit pixdist tracked nf cx cy w j d -> flt d f1e20 = true) ->
  exists p, candsearch_in_pix pixdist nf num cx cy dl dr du dd imx imy = Ok p /\
    if center_in_image cx cy imx imy then nearest4 (hit pixdist tracked nf cx cy w) p
    else p = [-1; -1; -1; -1].
Proof.
  intros Hn HA Hpc w Hfin. unfold candsearch_in_pix. fold w.
  destruct (center_in_image cx cy imx imy); [|eauto].
  destruct (scan_from (S := best4) pixdist tracked cx cy w best4_insert nf num Hn HA Hpc (pad [])) as (k & Ek & L).
  rewrite Ek. cbn [bind].
  change (pix_step pixdist nf cx cy w) with (gstep (S:=best4) pixdist tracked cx cy w best4_insert nf).
  change (TR_UNUSED, f1e20, (TR_UNUSED, f1e20), (TR_UNUSED, f1e20), (TR_UNUSED, f1e20)) with (pad []).
  rewrite L. cbn [bind].
  assert (H : exists l, scan pixdist tracked cx cy w best4_insert 0 nf (pad []) = pad l /\
    (length l <= 4)%nat /\ incr l /\
    (forall q, In q l -> hit pixdist tracked nf cx cy w (fst q) (snd q)) /\
    (forall j d, hit pixdist tracked nf cx cy w j d ->
       covers l j d \/ (length l = 4%nat /\ forall q, In q l -> flt (snd q) d = true))).
  { pose proof (scan_inv (S:=best4) pixdist tracked cx cy w best4_insert nf
      (fun n b => exists l, b = pad l /\ (length l <= 4)%nat /\ incr l /\
        (forall q, In q l -> hit pixdist tracked nf cx cy w (fst q) (snd q) /\ fst q < n) /\
        (forall j d, j < n -> hit pixdist tracked nf cx cy w j d ->
           covers l j d \/ (length l = 4%nat /\ forall q, In q l -> flt (snd q) d = true))) (pad [])) as IV.
    destruct IV as (l & L1 & L2 & L3 & L4 & L5).
    - exists []. split; auto. split; [simpl; lia|]. split; [constructor|]. split; [intros q []|].
      intros j d Hj (t & Hj0 & _). lia.
    - intros j t b Hj Ht (l & -> & L2 & L3 & L4 & L5).
      destruct (tracked t && inside w t) eqn:Et.
      + apply andb_true_iff in Et as (E1 & E2).
        set (d := pixdist cx cy (t_x t) (t_y t)).
        assert (Hd : hit pixdist tracked nf cx cy w j d) by (exists t; auto).
        pose proof (Hfin _ _ Hd) as Hf.
        exists (firstn 4 (ins l j d)). split.
        { apply insert_pad; auto. intros q Hq. apply (Hfin (fst q)). now apply L4. }
        split; [rewrite firstn_length; lia|]. split; [now apply firstn_incr, ins_incr|]. split.
        { intros q Hq. assert (Hq' : In q (ins l j d)) by (rewrite <- (firstn_skipn 4 (ins l j d)); apply in_or_app; auto).
          apply ins_In in Hq' as [->|Hq']; [split; auto; simpl; lia|]. destruct (L4 q Hq'). split; auto. lia. }
        intros j' d' Hj' Hh.
        assert (HI : incr (ins l j d)) by now apply ins_incr.
        destruct (Z.eq_dec j' j) as [->|Hne].
        * destruct Hh as (t' & _ & Ht' & _ & _ & ->). assert (t' = t) as -> by congruence. fold d.
          apply trunc_covers; auto. apply ins_covers; [now apply flt_not_nan in Hf|].
          intros q Hq. destruct (L4 q Hq) as (Hq1 & Hq2). split; [|lia].
          pose proof (Hfin _ _ Hq1) as Hf1. now apply flt_not_nan in Hf1.
        * destruct (L5 j' d' ltac:(lia) Hh) as [(q & Q1 & Q2)|(F1 & F2)].
          -- apply trunc_covers; auto. exists q. split; auto. now apply ins_keep.
          -- right. destruct (flt_not_nan _ _ (Hfin _ _ Hh)) as (Nd' & _).
             (* new list has four entries at most as far as the old ones *)
             assert (HL4 : (4 <= length (ins l j d))%nat).
             { rewrite <- F1. apply ins_length. }
             split; [rewrite firstn_length; lia|].
             clear -F1 F2 L3.
             destruct l as [|q1 [|q2 [|q3 [|q4 [|q5 l]]]]]; cbn [length] in F1; try lia.
             assert (A1 := F2 q1 ltac:(simpl; auto)). assert (A2 := F2 q2 ltac:(simpl; auto)).
             assert (A3 := F2 q3 ltac:(simpl; auto)). assert (A4 := F2 q4 ltac:(simpl; auto)).
             intros q. cbn [ins].
             destruct (flt d (snd q1)) eqn:E1; [cbn [firstn]; intros [<-|[<-|[<-|[<-|[]]]]]; cbn [snd]; auto; eapply flt_trans; eauto|].
             destruct (flt (snd q1) d); [|cbn [firstn]; intros [<-|[<-|[<-|[<-|[]]]]]; auto].
             destruct (flt d (snd q2)) eqn:E2; [cbn [firstn]; intros [<-|[<-|[<-|[<-|[]]]]]; cbn [snd]; auto; eapply flt_trans; eauto|].
             destruct (flt (snd q2) d); [|cbn [firstn]; intros [<-|[<-|[<-|[<-|[]]]]]; auto].
             destruct (flt d (snd q3)) eqn:E3; [cbn [firstn]; intros [<-|[<-|[<-|[<-|[]]]]]; cbn [snd]; auto; eapply flt_trans; eauto|].
             destruct (flt (snd q3) d); [|cbn [firstn]; intros [<-|[<-|[<-|[<-|[]]]]]; auto].
             destruct (flt d (snd q4)) eqn:E4; [cbn [firstn]; intros [<-|[<-|[<-|[<-|[]]]]]; cbn [snd]; auto; eapply flt_trans; eauto|].
             destruct (flt (snd q4) d); cbn [firstn]; intros [<-|[<-|[<-|[<-|[]]]]]; auto.
      + exists l. split; auto. split; auto. split; auto. split.
        { intros q Hq. destruct (L4 q Hq). split; auto. lia. }
        intros j' d' Hj' Hh. destruct (Z.eq_dec j' j) as [->|Hne]; [|apply L5; auto; lia].
        destruct Hh as (t' & _ & Ht' & T1 & T2 & _). assert (t' = t) as -> by congruence.
        rewrite T1, T2 in Et. discriminate.
    - exists l. split; auto. split; auto. split; auto. split; [intros q Hq; now apply L4|].
      intros j d Hh. apply L5; auto. destruct Hh as (t & H0 & Ht & _).
      assert (Z.to_nat j < length nf)%nat by (apply nth_error_Some; congruence). lia. }
  destruct H as (l & El & L2 & L3 & L4 & L5). rewrite El.
  pose proof (pad_list l L2) as P. destruct (pad l) as [[[q1 q2] q3] q4].
  eexists. split; [reflexivity|]. rewrite P.
  exists (map fst l), (map snd l). rewrite !map_length.
  split; auto. split; auto. split; auto. split.
  - intros i j d H1 H2. rewrite nth_error_map in H1. rewrite nth_error_map in H2.
    destruct (nth_error l i) as [q|] eqn:Eq; [|discriminate]. simpl in H1, H2. injection H1 as <-. injection H2 as <-.
    apply L4. eapply nth_error_In; eauto.
  - split.
    + intros i i' d d' Hi H1 H2. rewrite nth_error_map in H1. rewrite nth_error_map in H2.
      destruct (nth_error l i) as [q|] eqn:Eq; [|discriminate]. destruct (nth_error l i') as [q'|] eqn:Eq'; [|discriminate].
      simpl in H1, H2. injection H1 as <-. injection H2 as <-.
      clear -L3 Hi Eq Eq'. revert i i' Hi Eq Eq'. induction L3 as [|a l HS IH HF]; intros i i' Hi Eq Eq'; [destruct i; discriminate|].
      destruct i' as [|i']; [lia|]. simpl in Eq'. destruct i as [|i]; simpl in Eq.
      * injection Eq as <-. rewrite Forall_forall in HF. apply HF. eapply nth_error_In; eauto.
      * eapply (IH i i'); eauto. lia.
    + intros j d Hh. destruct (L5 j d Hh) as [(q & Q1 & Q2 & Q3)|(F1 & F2)].
      * left. apply In_nth_error in Q1 as (i & Hi). exists i, (fst q), (snd q).
        rewrite !nth_error_map, Hi. auto.
      * right. split; auto. intros d' Hd'. apply in_map_iff in Hd' as (q & <- & Hq). auto.
Qed.

(** ---- nearest free target ---- *)
Theorem candsearch_rest_exact nf num cx cy dl dr du dd imx imy :
  num = Z.of_nat (length nf) -> y_ascending nf -> popcount (num / 2) <= 11 ->
  let w := clip_window cx cy dl dr du dd imx imy in
  (forall j d, hit pixdist free nf cx cy w j d -> flt d f1e20 = true) ->
  exists cnt p, candsearch_in_pix_rest pixdist nf num cx cy dl dr du dd (-1) imx imy = Ok (cnt, p) /\
    ((cnt = 0 /\ p = -1 /\
      (center_in_image cx cy imx imy = true -> forall j d, ~ hit pixdist free nf cx cy w j d)) \/
     (cnt = 1 /\ center_in_image cx cy imx imy = true /\
      exists d, hit pixdist free nf cx cy w p d /\
        forall j d', hit pixdist free nf cx cy w j d' -> flt d d' = true \/ (feq d d' = true /\ p <= j))).
Proof.
  intros Hn HA Hpc w Hfin. unfold candsearch_in_pix_rest. fold w.
  destruct (center_in_image cx cy imx imy); [|exists 0, (-1); split; auto; left; repeat split; discriminate].
  set (up := fun (s : Z * f64) (j : Z) (d : f64) => if flt d (snd s) then (j, d) else s).
  destruct (scan_from (S := Z * f64) pixdist free cx cy w up nf num Hn HA Hpc (-1, f1e20)) as (k & Ek & L).
  rewrite Ek. cbn [bind].
  assert (ES : forall j s, rest_step pixdist nf cx cy w j s = gstep pixdist free cx cy w up nf j s).
  { intros j s. unfold rest_step, gstep, tryC, free, up, TR_UNUSED. destruct (pyget nf j); auto.
    destruct (t_tnr a =? -1); auto. destruct (fgt _ _); auto. destruct (inside w a); auto. destruct (flt _ _); auto. }
  assert (EF : forall l s, forC l (rest_step pixdist nf cx cy w) s = forC l (gstep pixdist free cx cy w up nf) s).
  { induction l as [|a l IH]; intros s; cbn [forC]; auto. rewrite ES. destruct (gstep _ _ _ _ _ _ _ a s); cbn [bindC]; auto. }
  rewrite EF, L. cbn [bind].
  pose proof (scan_inv (S:=Z*f64) pixdist free cx cy w up nf
    (fun n s => (s = (-1, f1e20) /\ forall j d, j < n -> ~ hit pixdist free nf cx cy w j d) \/
       (hit pixdist free nf cx cy w (fst s) (snd s) /\ fst s < n /\
        forall j d, j < n -> hit pixdist free nf cx cy w j d -> flt (snd s) d = true \/ (feq (snd s) d = true /\ fst s <= j)))
    (-1, f1e20)) as IV.
  set (s := scan _ _ _ _ _ _ _ _ _) in *.
  destruct IV as [(Es & HN)|(H1 & H2 & H3)].
  - left. split; auto. intros j d Hj (t & Hj0 & _). lia.
  - intros j t s0 Hj Ht HI. destruct (free t && inside w t) eqn:Et.
    + apply andb_true_iff in Et as (E1 & E2). set (d := pixdist cx cy (t_x t) (t_y t)).
      assert (Hd : hit pixdist free nf cx cy w j d) by (exists t; auto).
      pose proof (Hfin _ _ Hd) as Hf. destruct (flt_not_nan _ _ Hf) as (Nd & _).
      assert (HU : forall d', hit pixdist free nf cx cy w j d' -> d' = d).
      { intros d' (t' & _ & Ht' & _ & _ & ->). assert (t' = t) as -> by congruence. reflexivity. }
      right. unfold up. destruct HI as [(-> & HN)|(H1 & H2 & H3)].
      * cbn [snd fst]. rewrite Hf. cbn [snd fst]. split; auto. split; [lia|]. intros j' d' Hj' Hh.
        destruct (Z.eq_dec j' j) as [->|]; [|exfalso; apply (HN j' d'); auto; lia].
        rewrite (HU d' Hh). right. split; [now apply feq_refl|lia].
      * destruct (flt d (snd s0)) eqn:El; cbn [fst snd].
        -- split; auto. split; [lia|]. intros j' d' Hj' Hh. destruct (Z.eq_dec j' j) as [->|].
           ++ rewrite (HU d' Hh). right. split; [now apply feq_refl|lia].
           ++ left. destruct (H3 j' d' ltac:(lia) Hh) as [Hlt|(Heq & _)].
              ** eapply flt_trans; eauto.
              ** rewrite <- (feq_flt_r (snd s0) d'); auto.
        -- split; auto. split; [lia|]. intros j' d' Hj' Hh. destruct (Z.eq_dec j' j) as [->|]; [|apply H3; auto; lia].
           rewrite (HU d' Hh).
           destruct (flt_not_nan _ _ (Hfin _ _ H1)) as (N0 & _).
           destruct (flt (snd s0) d) eqn:E3; [auto|]. right. split; [|lia].
           apply feq_key. split; auto. split; auto.
           apply (flt_false_fle _ _ N0 Nd) in E3. apply (flt_false_fle _ _ Nd N0) in El.
           apply fle_kle in E3 as (_ & _ & K1). apply fle_kle in El as (_ & _ & K2).
           destruct (key (snd s0)) as [[x1 x2] x3], (key d) as [[y1 y2] y3]. unfold kle, klt in *.
           destruct K1 as [K1|K1]; [|congruence]. destruct K2 as [K2|K2]; [|congruence]. lia.
    + assert (HX : forall d, ~ hit pixdist free nf cx cy w j d).
      { intros d (t' & _ & Ht' & T1 & T2 & _). assert (t' = t) as -> by congruence. rewrite T1, T2 in Et. discriminate. }
      destruct HI as [(-> & HN)|(H1 & H2 & H3)].
      * left. split; auto. intros j' d' Hj' Hh. destruct (Z.eq_dec j' j) as [->|]; [eapply HX; eauto|]. apply (HN j' d'); auto; lia.
      * right. split; auto. split; [lia|]. intros j' d' Hj' Hh. destruct (Z.eq_dec j' j) as [->|]; [exfalso; eapply HX; eauto|].
        apply H3; auto; lia.
  - exists 0, (-1). rewrite Es. split; auto. left. split; auto. split; auto. intros _ j d Hh.
    apply (HN j d); auto. destruct Hh as (t & H0 & Ht & _).
    assert (Z.to_nat j < length nf)%nat by (apply nth_error_Some; congruence). lia.
  - exists 1, (fst s). assert (0 <= fst s) by (destruct H1 as (t & H0 & _); auto).
    destruct (Z.eqb_spec (fst s) (-1)); [lia|]. split; auto. right. split; auto. split; auto.
    exists (snd s). split; auto. intros j d Hh. apply H3; auto. destruct Hh as (t & H0 & Ht & _).
    assert (Z.to_nat j < length nf)%nat by (apply nth_error_Some; congruence). lia.
Qed.
End Pix.

(** ---- the clipped window in plain terms ---- *)
Lemma shr1_nonneg m : 0 <= shr_m m -> 0 <= shr_m (shr_1 m).
Proof. destruct m as [m r s]. destruct m as [|[p|p|]|[p|p|]]; cbn; lia. Qed.
Lemma iter_shr_nonneg p : forall m, 0 <= shr_m m -> 0 <= shr_m (iter_pos shr_1 p m).
Proof.
  induction p as [p IH|p IH|]; intros m H; cbn [iter_pos]; auto using shr1_nonneg.
Qed.
Lemma shr_nonneg m e n : 0 <= shr_m m -> 0 <= shr_m (fst (shr m e n)).
Proof. intros H. unfold shr. destruct n; cbn [fst]; auto. now apply iter_shr_nonneg. Qed.
Lemma shr_fexp_nonneg p e m x l : 0 <= m -> 0 <= shr_m (fst (shr_fexp p e m x l)).
Proof. intros H. unfold shr_fexp. apply shr_nonneg. destruct l as [|[]]; cbn; auto. Qed.
Lemma round_aux_not_nan p e s m x l : 0 <= m -> is_nan (binary_round_aux p e s m x l) = false.
Proof.
  intros H. unfold binary_round_aux.
  pose proof (shr_fexp_nonneg p e m x l H) as H1. destruct (shr_fexp p e m x l) as [q1 e1]. cbn [fst] in H1.
  assert (H2 : 0 <= round_nearest_even (shr_m q1) (loc_of_shr_record q1)).
  { unfold round_nearest_even. destruct (loc_of_shr_record q1) as [|[]]; try lia. destruct (Z.even _); lia. }
  pose proof (shr_fexp_nonneg p e _ e1 loc_Exact H2) as H3.
  destruct (shr_fexp p e _ e1 loc_Exact) as [q2 e2]. cbn [fst] in H3.
  destruct (shr_m q2); [reflexivity| |lia]. destruct (_ <=? _); reflexivity.
Qed.
Lemma f_of_Z_not_nan z : is_nan (f_of_Z z) = false.
Proof.
  destruct z; [reflexivity| |]; unfold f_of_Z, binary_normalize, binary_round;
  destruct (shl_align _ _ _) as [m x]; apply round_aux_not_nan; lia.
Qed.

Lemma clip_lo v x : flt (if flt v fzero then fzero else v) x = flt v x && flt fzero x.
Proof.
  destruct (flt v fzero) eqn:E.
  - destruct (flt fzero x) eqn:F; [|now rewrite andb_false_r]. now rewrite (flt_trans _ _ _ E F).
  - destruct (flt v x) eqn:F; [|reflexivity]. destruct (flt_not_nan _ _ F) as (N & _).
    assert (fle fzero v = true) by (apply flt_false_fle; auto).
    now rewrite (fle_flt_trans _ _ _ H F).
Qed.
Lemma clip_hi v x m : is_nan m = false -> flt x (if fgt v m then m else v) = flt x v && flt x m.
Proof.
  intros Hm. unfold fgt. destruct (flt m v) eqn:E.
  - destruct (flt x m) eqn:F; [|now rewrite andb_false_r]. now rewrite (flt_trans _ _ _ F E).
  - destruct (flt x v) eqn:F; [|reflexivity]. destruct (flt_not_nan _ _ F) as (_ & N).
    assert (fle v m = true) by (apply flt_false_fle; auto).
    now rewrite (flt_fle_trans _ _ _ F H).
Qed.
Lemma hit_plain pixdist sel nf cx cy dl dr du dd imx imy j d :
  hit pixdist sel nf cx cy (clip_window cx cy dl dr du dd imx imy) j d <->
  target_hit pixdist sel nf cx cy dl dr du dd imx imy j d.
Proof.
  unfold hit, target_hit. split; intros (t & H1 & H2 & H3 & H4).
  - destruct H4 as (H4 & H5). exists t. unfold inside, clip_window in H4. cbn [w_xmin w_xmax w_ymin w_ymax] in H4.
    rewrite !clip_lo, !clip_hi in H4 by apply f_of_Z_not_nan. rewrite !andb_true_iff in H4. tauto.
  - destruct H4 as (H4 & H4' & H5). exists t. split; auto. split; auto. split; auto. split; auto.
    unfold inside, clip_window. cbn [w_xmin w_xmax w_ymin w_ymax].
    rewrite !clip_lo, !clip_hi by apply f_of_Z_not_nan. rewrite !andb_true_iff. tauto.
Qed.
Lemma centre_plain cx cy imx imy : center_in_image cx cy imx imy = true <-> centre_on_image cx cy imx imy.
Proof. unfold center_in_image, centre_on_image, fge. rewrite !andb_true_iff. tauto. Qed.
Lemma nearest4_ext (h h' : Z -> f64 -> Prop) p : (forall j d, h j d <-> h' j d) -> nearest4 h p -> nearest4 h' p.
Proof.
  intros E (js & ds & H1 & H2 & H3 & H4 & H5 & H6). exists js, ds. split; auto. split; auto. split; auto.
  split; [|split]; auto. - intros. apply E. eauto. - intros j d H. apply H6. now apply E.
Qed.
