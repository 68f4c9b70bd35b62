(** Property C69: from detected targets to reported matches. *)
From Coq Require Import Sorted Permutation.
From Verif Require Import F64 Model_corr Spec_corr Proof_corr_prop Prop_corr Model_cand Spec_cand Model_misc Spec_misc
  Model_chain Spec_chain Proof_chain Proof_chain2 Prop_misc Base.
Local Open Scope Z_scope.

(** ===== C69: four cameras, end to end =====
    For every projection to flat coordinates, every epipolar segment function and every
    choice of ties in the sorts, for 1..10000 targets in each of four cameras: the
    search succeeds; the returned columns are sets of targets that are pairwise
    compatible (with the two exceptions named in Spec_chain); every target is in at most
    one of them and is given its number; and no compatible quadruplet is lost unless a
    quadruplet with at least the same score took one of its targets. *)
Theorem C69_end_to_end : forall srt sort_x flat epi vp sens imgs corrmin flag,
  sorts srt -> sorts_by_x sort_x -> usable flat epi imgs ->
  exists Q T P rq rt rp tg,
    match_targets srt sort_x flat epi vp sens corrmin 4 flag imgs = Ok ([rq; rt; rp], Z.of_nat (length (Q ++ T ++ P)), tg) /\
    shows imgs Q rq /\ shows imgs T rt /\ shows imgs P rp /\
    (forall ids, In ids Q -> exists s, quad_score flat epi vp sens imgs corrmin ids s) /\
    (forall ids, In ids T -> good_triplet flat epi vp sens imgs corrmin ids) /\
    (forall ids, In ids P -> good_pair flat epi vp sens imgs corrmin ids) /\
    (flag <> 0 -> T = [] /\ P = []) /\
    (forall i j a b, i <> j -> nth_error (Q ++ T ++ P) i = Some a -> nth_error (Q ++ T ++ P) j = Some b -> ~ share a b) /\
    (forall a p t, 0 <= a -> 0 <= p -> target_at imgs a p = Some t ->
       (exists i ids, nth_error (Q ++ T ++ P) i = Some ids /\ nth_error ids (Z.to_nat a) = Some p /\
          target_at tg a p = Some (mk_target p (t_x t) (t_y t) (t_n t) (t_nx t) (t_ny t) (t_sumg t) (Z.of_nat i))) \/
       ((forall ids, In ids (Q ++ T ++ P) -> nth_error ids (Z.to_nat a) <> Some p) /\
          target_at tg a p = Some (mk_target p (t_x t) (t_y t) (t_n t) (t_nx t) (t_ny t) (t_sumg t) (t_tnr t)))) /\
    ((forall b ts, nth_error imgs b = Some ts -> popcount (Z.of_nat (length ts) / 2) <= 11) ->
     (forall a b p l, NoDup l -> (forall q, In q l -> exists x d, compatible flat epi vp sens imgs a b p q x d) -> (length l <= 40)%nat) ->
     (forall l, NoDup l -> (forall ids, In ids l -> exists s, good_quad flat epi vp sens imgs corrmin ids s) -> Z.of_nat (length l) <= 40000) ->
     forall ids s, good_quad flat epi vp sens imgs corrmin ids s ->
       In ids Q \/ exists ids' s', In ids' Q /\ share ids ids' /\ quad_score flat epi vp sens imgs corrmin ids' s' /\ np_le s s' = true).
Proof. intros. apply chain; auto. Qed.
Print Assumptions C69_end_to_end.

(** a case meeting all hypotheses: two targets per camera; targets 1, 0, 1, 0 are compatible *)
Definition tgt (x y n : Z) : target := mk_target (-1) (f_of_Z x) (f_of_Z y) n 3 3 100 (-1).
Definition ch_imgs : list (list target) := [[tgt 50 40 9; tgt 2 1 9]; [tgt 3 1 9; tgt 60 40 9]; [tgt 70 40 9; tgt 1 2 9]; [tgt 2 1 9; tgt 40 40 9]].
Definition ch_flat (a : Z) (x y : f64) : f64 * f64 := (x, y).
Definition ch_epi (a b : Z) (x y : f64) : result (f64 * f64 * f64 * f64) := Ok (fsub x (f_of_Z 4), fzero, fadd x (f_of_Z 4), fzero).
Definition ch_vol : vol_limits := mk_vol (f_of_Z 3) fzero fzero fzero fzero.
Definition ch_sens (b : Z) : sensor := mk_sensor (f_of_Z (-100)) (f_of_Z 100) (f_of_Z (-100)) (f_of_Z 100).

Lemma ch_small : forall a p t, target_at ch_imgs a p = Some t -> 0 <= p -> p = 0 \/ p = 1.
Proof.
  intros a p t H Hp. unfold target_at in H. destruct (nth_error ch_imgs (Z.to_nat a)) as [ts|] eqn:E; [|discriminate].
  assert (L : length ts = 2%nat).
  { apply nth_error_In in E. unfold ch_imgs in E. cbn [In] in E. destruct E as [<-|[<-|[<-|[<-|[]]]]]; reflexivity. }
  assert (Z.to_nat p < 2)%nat by (rewrite <- L; apply nth_error_Some; congruence). lia.
Qed.

Example C69_case : exists srt sort_x, sorts srt /\ sorts_by_x sort_x /\ usable ch_flat ch_epi ch_imgs /\
  (exists s, good_quad ch_flat ch_epi ch_vol ch_sens ch_imgs fzero [1; 0; 1; 0] s) /\
  (forall b ts, nth_error ch_imgs b = Some ts -> popcount (Z.of_nat (length ts) / 2) <= 11) /\
  (forall a b p l, NoDup l -> (forall q, In q l -> exists x d, compatible ch_flat ch_epi ch_vol ch_sens ch_imgs a b p q x d) -> (length l <= 40)%nat) /\
  (forall l, NoDup l -> (forall ids, In ids l -> exists s, good_quad ch_flat ch_epi ch_vol ch_sens ch_imgs fzero ids s) -> Z.of_nat (length l) <= 40000).
Proof.
  destruct C31_sort_exists as (sx & SX). exists isort, sx. split; [apply C03_case|]. split; auto.
  split.
  { split; [reflexivity|]. intros a ts E. apply nth_error_In in E. unfold ch_imgs in E. cbn [In] in E.
    split. { destruct E as [<-|[<-|[<-|[<-|[]]]]]; cbn; lia. }
    intros t Ht. split; [destruct E as [<-|[<-|[<-|[<-|[]]]]]; destruct Ht as [<-|[<-|[]]]; vm_compute; reflexivity|].
    assert (t_n t = 9 /\ t_nx t = 3 /\ t_ny t = 3 /\ t_sumg t = 100) as (-> & -> & -> & ->)
      by (destruct E as [<-|[<-|[<-|[<-|[]]]]]; destruct Ht as [<-|[<-|[]]]; auto).
    unfold small. repeat (split; [lia|]). intros b. eexists. reflexivity. }
  split.
  { exists (fdiv (f_of_Z 9600) (f_of_Z 8)).
    exists 1, 0, 1, 0. do 12 eexists. split; [reflexivity|].
    do 6 (split; [split; [lia|]; split; [lia|]; do 6 eexists; split; [reflexivity|]; split; [reflexivity|]; split; [reflexivity|];
      cbv zeta; split; [vm_compute; reflexivity|]; split; [vm_compute; reflexivity|]; split; reflexivity|]).
    split; vm_compute; reflexivity. }
  split. { intros b ts E. apply nth_error_In in E. unfold ch_imgs in E. cbn [In] in E. destruct E as [<-|[<-|[<-|[<-|[]]]]]; vm_compute; discriminate. }
  split.
  { intros a b p l ND H. assert (length l <= length [0; 1]%Z)%nat; [|cbn in *; lia].
    apply NoDup_incl_length; auto. intros q Hq. destruct (H q Hq) as (x & d & _ & Q & ta & tb & xa & ya & xb & yb & _ & Tb & _).
    destruct (ch_small _ _ _ Tb Q) as [-> | ->]; cbn; auto. }
  intros l ND H.
  set (pp := list_prod (list_prod [0; 1] [0; 1]) (list_prod [0; 1] [0; 1])).
  assert (length l <= length (map (fun x => [fst (fst x); snd (fst x); fst (snd x); snd (snd x)]) pp))%nat; [|cbn in *; lia].
  apply NoDup_incl_length; auto. intros ids Hi.
  destruct (H ids Hi) as (s & p0 & p1 & p2 & p3 & x01 & d01 & x02 & d02 & x03 & d03 & x12 & d12 & x13 & d13 & x23 & d23 & -> & C01 & C02 & C03 & _).
  destruct C01 as (A0 & A1 & ta & tb & ? & ? & ? & ? & T0 & T1 & _).
  destruct C02 as (_ & A2 & ? & tc & ? & ? & ? & ? & _ & T2 & _). destruct C03 as (_ & A3 & ? & td & ? & ? & ? & ? & _ & T3 & _).
  apply in_map_iff. exists ((p0, p1), (p2, p3)). split; [reflexivity|].
  assert (B : forall p, p = 0 \/ p = 1 -> In p [0; 1]) by (intros p [-> | ->]; cbn; auto).
  apply in_prod; apply in_prod; apply B; eapply ch_small; eauto.
Qed.
