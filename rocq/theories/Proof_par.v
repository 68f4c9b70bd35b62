(** Lines, blanks, sequential reading. *)
From Verif Require Import F64 F64R Model_text Proof_text Proof_text2 Model_corr Model_track Model_io Spec_io Model_par Spec_par Lib Base.
Local Open Scope Z_scope.

Definition blank (t : text) : Prop := Forall (fun c => is_space c = true) t.
Lemma drop_split t : exists p, blank p /\ t = p ++ drop_space t /\ (drop_space t = [] \/ exists c r, drop_space t = c :: r /\ is_space c = false).
Proof.
  induction t as [|c t (p & B & E & H)]; [exists []; repeat split; [constructor|now left]|]. cbn [drop_space]. destruct (is_space c) eqn:S.
  - exists (c :: p). split; [constructor; assumption|]. split; [cbn [app]; now rewrite <- E|exact H].
  - exists []. split; [constructor|]. split; [reflexivity|]. right. now exists c, t.
Qed.
Lemma drop_blank p u : blank p -> drop_space (p ++ u) = drop_space u.
Proof. intros B. induction B as [|c p S B IH]; [reflexivity|]. cbn [app drop_space]. now rewrite S. Qed.
Lemma drop_head c r : is_space c = false -> drop_space (c :: r) = c :: r.
Proof. intros S. cbn [drop_space]. now rewrite S. Qed.
Lemma drop_idem t : drop_space (drop_space t) = drop_space t.
Proof. destruct (drop_split t) as (p & _ & _ & [->|(c & r & -> & S)]); [reflexivity|now apply drop_head]. Qed.
Lemma rstrip_idem t : rstrip (rstrip t) = rstrip t.
Proof. unfold rstrip. now rewrite rev_involutive, drop_idem. Qed.
Lemma rstrip_split t : exists p, blank p /\ t = rstrip t ++ p.
Proof.
  destruct (drop_split (rev t)) as (p & B & E & _). exists (rev p). split; [now apply Forall_rev'|]. unfold rstrip.
  rewrite <- rev_app_distr, <- E. now rewrite rev_involutive.
Qed.
Lemma rstrip_head c r : is_space c = false -> exists r', rstrip (c :: r) = c :: r'.
Proof.
  intros S. destruct (rstrip_split (c :: r)) as (p & B & E). destruct (rstrip (c :: r)) as [|d r']; [|exists r'; cbn in E; congruence].
  cbn in E. rewrite <- E in B. inversion B; congruence.
Qed.
Lemma strip_rstrip_drop t : strip t = rstrip (drop_space t). Proof. reflexivity. Qed.
Lemma drop_strip t : drop_space (strip t) = strip t.
Proof.
  rewrite strip_rstrip_drop. destruct (drop_split t) as (p & _ & _ & [->|(c & r & -> & S)]); [reflexivity|].
  destruct (rstrip_head c r S) as (r' & ->). now apply drop_head.
Qed.
Lemma strip_idem t : strip (strip t) = strip t.
Proof. rewrite (strip_rstrip_drop (strip t)), drop_strip. rewrite strip_rstrip_drop. apply rstrip_idem. Qed.
Lemma drop_app_in a b : (exists x, In x a /\ is_space x = false) -> drop_space (a ++ b) = drop_space a ++ b.
Proof.
  intros (x & I & S). induction a as [|c a IH]; [contradiction|]. cbn [app drop_space]. destruct (is_space c) eqn:Sc; [|reflexivity].
  apply IH. destruct I as [->|I]; [congruence|assumption].
Qed.
Lemma rstrip_blank p : blank p -> rstrip p = [].
Proof. intros B. unfold rstrip. assert (B' : blank (rev p)) by now apply Forall_rev'. pose proof (drop_blank _ [] B') as H. rewrite app_nil_r in H. now rewrite H. Qed.
Lemma strip_rstrip t : strip (rstrip t) = strip t.
Proof.
  destruct (drop_split t) as (p & B & E & [H|(c & r & H & S)]).
  - rewrite H, app_nil_r in E. subst t. rewrite (rstrip_blank p B). unfold strip. now rewrite H.
  - assert (R : rstrip t = p ++ rstrip (c :: r)).
    { rewrite E, H. unfold rstrip at 1. rewrite rev_app_distr, drop_app_in; [now rewrite rev_app_distr, rev_involutive|].
      exists c. split; [|assumption]. apply in_rev. rewrite rev_involutive. now left. }
    rewrite R. rewrite !strip_rstrip_drop, drop_blank by assumption. rewrite H. destruct (rstrip_head c r S) as (r' & Er).
    rewrite Er, drop_head by assumption. rewrite <- Er. apply rstrip_idem.
Qed.
Lemma parse_int_strip t : parse_int (strip t) = parse_int t.
Proof. unfold parse_int. now rewrite strip_idem. Qed.
Lemma parse_float_strip t : parse_float (strip t) = parse_float t.
Proof. unfold parse_float. now rewrite strip_idem. Qed.
Lemma parse_int_rstrip t : parse_int (rstrip t) = parse_int t.
Proof. unfold parse_int. now rewrite strip_rstrip. Qed.
Lemma parse_float_rstrip t : parse_float (rstrip t) = parse_float t.
Proof. unfold parse_float. now rewrite strip_rstrip. Qed.

(** reading line after line *)
Lemma readline_skip ls k : readline (skipn k ls) = (nth k ls [], skipn (S k) ls).
Proof. revert ls. induction k as [|k IH]; intros [|a ls]; try reflexivity. apply IH. Qed.
Ltac rd := intros; unfold rd_int, rd_float, rd_int0, rd_float0, rd_int_r, rd_float_r, rd_name; rewrite readline_skip;
  rewrite ?parse_int_strip, ?parse_float_strip, ?parse_int_rstrip, ?parse_float_rstrip; reflexivity.
Lemma rd_int_skip ls k : rd_int (skipn k ls) = (do z <- parse_int (nth k ls []); Ok (z, skipn (S k) ls)). Proof. rd. Qed.
Lemma rd_int0_skip ls k : rd_int0 (skipn k ls) = (do z <- parse_int (nth k ls []); Ok (z, skipn (S k) ls)). Proof. rd. Qed.
Lemma rd_int_r_skip ls k : rd_int_r (skipn k ls) = (do z <- parse_int (nth k ls []); Ok (z, skipn (S k) ls)). Proof. rd. Qed.
Lemma rd_float_skip ls k : rd_float (skipn k ls) = (do z <- parse_float (nth k ls []); Ok (z, skipn (S k) ls)). Proof. rd. Qed.
Lemma rd_float0_skip ls k : rd_float0 (skipn k ls) = (do z <- parse_float (nth k ls []); Ok (z, skipn (S k) ls)). Proof. rd. Qed.
Lemma rd_float_r_skip ls k : rd_float_r (skipn k ls) = (do z <- parse_float (nth k ls []); Ok (z, skipn (S k) ls)). Proof. rd. Qed.
Lemma rd_name_skip ls k : rd_name (skipn k ls) = (strip (nth k ls []), skipn (S k) ls). Proof. rd. Qed.
Lemma rd_names_skip n : forall ls k, rd_names n (skipn k ls) = (map (fun i => strip (nth i ls [])) (seq k n), skipn (k + n) ls).
Proof.
  induction n as [|n IH]; intros ls k; [cbn; now rewrite Nat.add_0_r|]. cbn [rd_names seq map]. rewrite rd_name_skip, IH. now rewrite Nat.add_succ_r.
Qed.
Lemma rd_pairs_skip n : forall ls k, rd_pairs n (skipn k ls) =
  (map (fun i => strip (nth (k + 2 * i) ls [])) (seq 0 n), map (fun i => strip (nth (k + 2 * i + 1) ls [])) (seq 0 n), skipn (k + 2 * n) ls).
Proof.
  induction n as [|n IH]; intros ls k; [cbn; now rewrite Nat.add_0_r|]. cbn [rd_pairs]. rewrite rd_name_skip, rd_name_skip, IH.
  change (seq 0 (S n)) with (O :: seq 1 n). cbn [map]. rewrite <- !(seq_shift n 0), !map_map. f_equal; [f_equal; f_equal|].
  - f_equal. f_equal. lia.
  - apply map_ext. intros i. f_equal. f_equal. lia.
  - f_equal. f_equal. lia.
  - apply map_ext. intros i. f_equal. f_equal. lia.
  - f_equal. lia.
Qed.
Lemma skipn_0_eq {A} (l : list A) : l = skipn 0 l. Proof. reflexivity. Qed.
Lemma evens_odds {A} (f : nat -> A) n : forall k, evens (map f (seq k (n * 2))) = map (fun i => f (k + 2 * i)%nat) (seq 0 n) /\
  odds (map f (seq k (n * 2))) = map (fun i => f (k + 2 * i + 1)%nat) (seq 0 n).
Proof.
  induction n as [|n IH]; intros k; [split; reflexivity|]. cbn [Nat.mul Nat.add seq map evens odds]. destruct (IH (S (S k))) as (-> & ->).
  rewrite <- (seq_shift n 0), !map_map. split; (f_equal; [f_equal; lia|apply map_ext; intros i; f_equal; lia]).
Qed.
