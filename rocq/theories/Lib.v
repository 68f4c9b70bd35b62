(** General list and loop lemmas used by the later modules. *)
From Verif Require Import Base.
Local Open Scope Z_scope.

Lemma nth_error_firstn {A} (l : list A) n i : (i < n)%nat -> nth_error (firstn n l) i = nth_error l i.
Proof. revert n i. induction l as [|a l IH]; intros [|n] [|i] H; simpl; try lia; auto. apply IH. lia. Qed.
Lemma nth_error_skipn {A} (l : list A) n i : nth_error (skipn n l) i = nth_error l (n + i).
Proof. revert l. induction n as [|n IH]; intros [|a l]; simpl; auto. destruct i; auto. Qed.
Lemma nth_error_ext {A} (l l' : list A) : (forall i, nth_error l i = nth_error l' i) -> l = l'.
Proof.
  revert l'. induction l as [|a l IH]; intros [|b l'] H; auto.
  - specialize (H O). discriminate.
  - specialize (H O). discriminate.
  - pose proof (H O) as E. simpl in E. injection E as ->. f_equal. apply IH. intros i. exact (H (S i)).
Qed.
(** ---- generic row loops ---- *)
Lemma upd_same {A} (l : list A) k a : nth_error l k = Some a -> upd l k a = l.
Proof.
  revert k. induction l as [|h t IH]; intros [|k] H; simpl in *; try discriminate; auto.
  - now injection H as ->.
  - now rewrite IH.
Qed.
Lemma upd_upd {A} (l : list A) k a b : upd (upd l k a) k b = upd l k b.
Proof. revert k. induction l as [|h t IH]; intros [|k]; simpl; auto. now rewrite IH. Qed.
Lemma map_upd {A B} (f : A -> B) l k a : map f (upd l k a) = upd (map f l) k (f a).
Proof. revert k. induction l as [|h t IH]; intros [|k]; simpl; auto. now rewrite IH. Qed.

Lemma zrange_snoc a b : a <= b -> zrange a (b + 1) = zrange a b ++ [b].
Proof.
  intros H. unfold zrange. replace (Z.to_nat (b + 1 - a)) with (Z.to_nat (b - a) + 1)%nat by lia.
  rewrite seq_app, map_app. simpl. f_equal. f_equal. lia.
Qed.

(** a loop over an index range, with an invariant indexed by the counter *)
Lemma loop_total {S} (P : Z -> S -> Prop) (f : S -> Z -> result S) a b s :
  a <= b -> P a s ->
  (forall i s, a <= i < b -> P i s -> exists s1, f s i = Ok s1 /\ P (i + 1) s1) ->
  exists s', foldM f (zrange a b) s = Ok s' /\ P b s'.
Proof.
  intros Hab H0 Hs.
  destruct (foldM_total (fun done s => P (a + Z.of_nat (length done)) s) f (zrange a b) s) as (s' & E & H).
  - simpl. now rewrite Z.add_0_r.
  - intros done i rest s0 E HP. apply zrange_split in E as (_ & Hi & Ei).
    destruct (Hs i s0 Hi) as (s1 & E1 & H1); [now rewrite Ei|].
    exists s1. split; auto. rewrite app_length. simpl. replace (a + Z.of_nat (length done + 1)) with (i + 1) by lia. auto.
  - exists s'. split; auto. rewrite zrange_length in H. now replace (a + Z.of_nat (Z.to_nat (b - a))) with b in H by lia.
Qed.

