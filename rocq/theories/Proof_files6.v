(** The frames that a run writes can be held by the files. *)
From Coq Require Import Permutation.
From Verif Require Import F64 Model_text Model_corr Model_track Spec_track Proof_unread Proof_keep Model_fb Proof_keep2
  Model_io Spec_io Proof_io Proof_io2 Proof_io3 Proof_io4 Model_files Spec_files Proof_files Proof_files2 Proof_files3 Lib Base.
Local Open Scope Z_scope.

Lemma good_kept bases f g : fits f -> fr_num f = Z.of_nat (length (fr_path f)) /\ length (fr_corr f) = length (fr_path f) /\
    fr_numt f = map (fun t => Z.of_nat (length t)) (fr_targ f) /\ length (fr_targ f) = @length text bases -> Kf f g ->
  (forall q, In q (fr_path g) -> exact_int (p_prev q) /\ exact_int (p_next q)) -> good g.
Proof.
  intros (F1 & F2 & F3 & F4) (S1 & S2 & S3 & S4) K Q. pose proof (Kf_len _ _ K) as KL. destruct K as (K1 & K2 & K3 & K4 & K5). split; [rewrite K1, KL; exact S1|]. split; [rewrite K2, KL; exact S2|].
  split; [rewrite K4, K3; exact S3|]. split; [|rewrite K2, K3; auto]. apply Forall_forall. intros p Hp. apply in_map_iff in Hp as (q & <- & Hq).
  destruct (Q q Hq) as (Q1 & Q2). apply In_nth_error in Hq as (k & Hk).
  assert (X : exists p, In p (fr_path f) /\ Kp p q).
  { clear - K5 Hk. revert k Hk. induction K5 as [|x y l m HK K5 IH]; intros [|k] Hk; cbn in Hk; try discriminate; [injection Hk as <-; exists x; split; auto; now left|].
    destruct (IH _ Hk) as (p & A & B). exists p. split; auto. now right. }
  destruct X as (p & Hp & X1 & X2 & _). destruct (F4 p Hp) as (V & P). unfold path_ok, of_pinfo. rewrite X1. destruct (p_x p) as [[x y] z]. cbn [pr_x pr_prev pr_next pr_prio]. destruct V as (V1 & V2 & V3). rewrite X2. auto 10.
Qed.

Definition shape (bases : list text) (f : frame) : Prop := fr_num f = Z.of_nat (length (fr_path f)) /\ length (fr_corr f) = length (fr_path f) /\
    fr_numt f = map (fun t => Z.of_nat (length t)) (fr_targ f) /\ length (fr_targ f) = length bases.
Lemma run_good bases first last (R W : Z -> frame) : (forall n, first <= n <= last -> fits (R n) /\ shape bases (R n) /\ forall p, In p (fr_path (R n)) -> fresh_particle p) ->
  (forall n, first <= n <= last -> Kf (R n) (W n)) -> (forall n, first <= n < last -> mutual (fr_path (W n)) (fr_path (W (n + 1)))) ->
  (forall p, In p (fr_path (W first)) -> p_prev p = PREV_NONE) -> (forall p, In p (fr_path (W last)) -> p_next p = NEXT_NONE) ->
  forall n, first <= n <= last -> good (W n).
Proof.
  intros HR KF MU M4 M5.
  assert (LEN : forall n, first <= n <= last -> Z.of_nat (length (fr_path (W n))) <= 2 ^ 53).
  { intros n Hn. rewrite (Kf_len _ _ (KF n Hn)). apply HR. lia. }
  assert (TA : forall n q, first <= n <= last -> In q (fr_path (W n)) -> tame q).
  { intros n q Hn Hq. destruct (KF n Hn) as (_ & _ & _ & _ & F). destruct (HR n ltac:(lia)) as (_ & _ & E).
    clear - F E Hq. induction F as [|x y l m (_ & _ & HK) F IH]; [destruct Hq|]. destruct Hq as [<-|Hq]; [|apply IH; auto; intros p Hp; apply E; now right].
    apply HK. destruct (E x (or_introl eq_refl)) as (A & B). split; auto. }
  assert (QX : forall n q, first <= n <= last -> In q (fr_path (W n)) -> exact_int (p_prev q) /\ exact_int (p_next q)).
  { intros n q Hn Hq. destruct (TA n q Hn Hq) as (T1 & T2). pose proof Hq as Hq'. apply In_nth_error in Hq' as (k & Hk). unfold exact_int. split.
    - destruct T1 as [->|T1]; [unfold PREV_NONE; lia|]. destruct (Z.eq_dec n first) as [->|D]; [rewrite (M4 q Hq); unfold PREV_NONE; lia|].
      pose proof (MU (n - 1) ltac:(lia) (Z.to_nat (p_prev q)) k) as M. replace (n - 1 + 1) with n in M by lia. unfold prev_of, next_of in M. rewrite Hk, Z2Nat.id in M by lia.
      destruct M as (_ & M). specialize (M eq_refl). destruct (nth_error (fr_path (W (n - 1))) (Z.to_nat (p_prev q))) eqn:X; [|unfold NEXT_NONE in M; lia].
      assert (Z.to_nat (p_prev q) < length (fr_path (W (n - 1)%Z)))%nat by (apply nth_error_Some; congruence). pose proof (LEN (n - 1) ltac:(lia)). lia.
    - destruct T2 as [->|T2]; [unfold NEXT_NONE; lia|]. destruct (Z.eq_dec n last) as [->|D]; [rewrite (M5 q Hq); unfold NEXT_NONE; lia|].
      pose proof (MU n ltac:(lia) k (Z.to_nat (p_next q))) as M. unfold prev_of, next_of in M. rewrite Hk, Z2Nat.id in M by lia.
      destruct M as (M & _). specialize (M eq_refl). destruct (nth_error (fr_path (W (n + 1))) (Z.to_nat (p_next q))) eqn:X; [|unfold PREV_NONE in M; lia].
      assert (Z.to_nat (p_next q) < length (fr_path (W (n + 1)%Z)))%nat by (apply nth_error_Some; congruence). pose proof (LEN (n + 1) ltac:(lia)). lia. }
  intros n Hn. destruct (HR n Hn) as (A & B & _). eapply (good_kept bases); eauto.
Qed.
