(** Concrete instances: non-vacuity of the hypotheses, and refutations. *)
From Coq Require Import Permutation Sorted.
From Verif Require Import Base F64 Model_corr Spec_corr Proof_corr_take Proof_corr_loops Proof_corr_three Proof_corr_pairs Proof_corr_all Proof_corr_main Proof_corr_pm Proof_corr_prop.
Local Open Scope Z_scope.

Definition f1 : f64 := f_of_Z 1.
Definition f2 : f64 := f_of_Z 2.

Definition unok {A} (d : A) (r : result A) : A := match r with Ok a => a | Exn _ => d end.

(** two targets per camera, target i of each camera matches target i of each other *)
Definition ex_cands (a b i : Z) : result (list (Z * f64 * f64)) := Ok [(i, f2, f1)].
Definition ex_counts : list Z := [2; 2; 2; 2].
Definition ex_adj : adj := unok [] (match_pairs ex_cands 4 ex_counts (empty_adj 4 2)).
(** no candidates at all *)
Definition no_cands (a b i : Z) : result (list (Z * f64 * f64)) := Ok [].
Definition no_adj : adj := unok [] (match_pairs no_cands 4 ex_counts (empty_adj 4 2)).
(** target 0 of camera 0 matches target 1 of camera 1 and target 0 of camera 2,
    which do not match each other *)
Definition bad_cands (a b i : Z) : result (list (Z * f64 * f64)) :=
  if (a =? 0) && (b =? 1) && (i =? 0) then Ok [(1, f2, f1)]
  else if (a =? 0) && (b =? 2) && (i =? 0) then Ok [(0, f2, f1)] else Ok [].
Definition bad_adj : adj := unok [] (match_pairs bad_cands 4 ex_counts (empty_adj 4 2)).
(** target 0 of camera 0 has target 1 of camera 1 as its only candidate *)
Definition tar (p : Z) : target :=
  {| t_pnr := p; t_x := f1; t_y := f2; t_n := 5; t_nx := 2; t_ny := 3; t_sumg := 100; t_tnr := -1 |}.
Definition crd (p : Z) : coord2d := {| c_pnr := p; c_x := f1; c_y := f1 |}.
Definition ex_coords : list (list coord2d) := repeat [crd 1; crd 0] 4.
Definition ex_targets : list (list target) := repeat [tar 0; tar 1] 4.

Lemma ex_counts_get a n : nth_error ex_counts a = Some n -> n = 2.
Proof. intros H. apply nth_error_In in H. simpl in H. intuition. Qed.

Lemma ex_ok cands cl : (forall a b i, 0 <= i < 2 -> exists l, cands a b i = Ok l /\ (length l <= 40)%nat /\
      (forall x, In x l -> 0 <= fst (fst x) < 2) /\ NoDup (map (fun x => fst (fst x)) l)) ->
  cl = unok [] (match_pairs cands 4 ex_counts (empty_adj 4 2)) ->
  match_pairs cands 4 ex_counts (empty_adj 4 2) = Ok cl /\
  wf_adj 4 ex_counts cl /\ distinct_cands cl /\
  forall a b i, 0 <= a < b -> b < 4 -> 0 <= i < 2 ->
       forall j x d, edge cl a b i j x d <-> exists l, cands a b i = Ok l /\ In (j, x, d) l.
Proof.
  intros H E.
  destruct (match_pairs_exact cands 4 ex_counts 2) as (cl' & E1 & W & D & He); try lia; auto.
  - intros n Hn. simpl in Hn. intuition lia.
  - intros a b i na nb Hab Hb Na Nb Hi. apply ex_counts_get in Na, Nb. subst. apply H; auto.
  - change (Z.to_nat 4) with 4%nat in E1. rewrite E1 in E. simpl in E. subst cl'.
    split; auto. split; auto. split; auto. intros a b i Hab Hb Hi.
    destruct (nth_error ex_counts (Z.to_nat a)) as [na|] eqn:Na.
    2:{ apply nth_error_None in Na. change (length ex_counts) with 4%nat in Na. lia. }
    apply (He a b i na); auto. apply ex_counts_get in Na. lia.
Qed.

Lemma ex_adj_ok : wf_adj 4 ex_counts ex_adj /\ distinct_cands ex_adj /\
  forall a b i, 0 <= a < b -> b < 4 -> 0 <= i < 2 -> edge ex_adj a b i i f2 f1.
Proof.
  destruct (ex_ok ex_cands ex_adj) as (_ & W & D & He).
  - intros a b i Hi. exists [(i, f2, f1)]. split; [reflexivity|]. simpl. split; [lia|].
    split; [intros x [<-|[]]; simpl; lia|]. repeat constructor. intros [].
  - reflexivity.
  - split; auto. split; auto. intros a b i Hab Hb Hi. apply He; auto. exists [(i, f2, f1)]. simpl; auto.
Qed.

Lemma no_adj_ok : wf_adj 4 ex_counts no_adj /\ distinct_cands no_adj /\
  forall a b i j x d, ~ edge no_adj a b i j x d.
Proof.
  destruct (ex_ok no_cands no_adj) as (E & W & D & He).
  - intros a b i Hi. exists []. split; [reflexivity|]. simpl. split; [lia|].
    split; [intros x []|constructor].
  - reflexivity.
  - split; auto. split; auto. intros a b i j x d (c & k & (Ha & Hb & Hi & l1 & l2 & N1 & N2 & N3) & Hk & _).
    assert (Hcn : forallb (forallb (forallb (fun c => cn c =? 0))) no_adj = true) by (vm_compute; reflexivity).
    rewrite forallb_forall in Hcn. specialize (Hcn _ (nth_error_In _ _ N1)).
    rewrite forallb_forall in Hcn. specialize (Hcn _ (nth_error_In _ _ N2)).
    rewrite forallb_forall in Hcn. specialize (Hcn _ (nth_error_In _ _ N3)). lia.
Qed.

Lemma bad_adj_ok : wf_adj 4 ex_counts bad_adj /\ distinct_cands bad_adj /\
  forall x d, ~ edge bad_adj 1 2 1 0 x d.
Proof.
  destruct (ex_ok bad_cands bad_adj) as (E & W & D & He).
  - intros a b i Hi. unfold bad_cands. destruct ((a =? 0) && (b =? 1) && (i =? 0)).
    + exists [(1, f2, f1)]. split; [reflexivity|]. simpl. split; [lia|].
      split; [intros x [<-|[]]; simpl; lia|]. repeat constructor. intros [].
    + destruct ((a =? 0) && (b =? 2) && (i =? 0)).
      * exists [(0, f2, f1)]. split; [reflexivity|]. simpl. split; [lia|].
        split; [intros x [<-|[]]; simpl; lia|]. repeat constructor. intros [].
      * exists []. split; [reflexivity|]. simpl. split; [lia|]. split; [intros x []|constructor].
  - reflexivity.
  - split; auto. split; auto. intros x d H. apply He in H; try lia. destruct H as (l & El & Hl).
    unfold bad_cands in El. simpl in El. inversion El; subst. contradiction.
Qed.

Lemma ex_coords_ok : coords_ok 4 ex_counts ex_coords ex_targets.
Proof.
  split; [reflexivity|]. split; [reflexivity|]. intros cam n cs ts Hn Hc Ht.
  apply ex_counts_get in Hn. subst n.
  apply nth_error_In, repeat_spec in Hc. apply nth_error_In, repeat_spec in Ht. subst.
  split; [reflexivity|]. split; [reflexivity|]. split.
  - simpl. intros c [<-|[<-|[]]]; simpl; lia.
  - simpl. repeat constructor; simpl; intuition congruence.
Qed.

Lemma ex_counts_ok n : In n ex_counts -> 1 <= n <= NMAX.
Proof. simpl. unfold NMAX. intuition lia. Qed.

Definition free_marks : list (list Z) := repeat (repeat 0 (Z.to_nat NMAX)) 4.
Lemma free_marks_ok : table_ok 4 ex_counts free_marks /\ marks_ok free_marks /\ table_dims 4 free_marks.
Proof.
  assert (H : forall row, In row free_marks -> row = repeat 0 (Z.to_nat NMAX)).
  { intros row Hr. apply repeat_spec in Hr. auto. }
  split; [|split].
  - split; [reflexivity|]. split; [intros n Hn; apply ex_counts_ok in Hn; lia|].
    intros row Hr. rewrite (H row Hr). apply repeat_length.
  - intros row u Hr Hu. rewrite (H row Hr) in Hu. apply repeat_spec in Hu. lia.
  - split; [reflexivity|]. intros row Hr. rewrite (H row Hr). apply repeat_length.
Qed.
Lemma free_not_used cam k : ~ used free_marks cam k.
Proof.
  intros (_ & _ & row & u & Hr & Hu & Hpos). apply nth_error_In, repeat_spec in Hr. subst.
  apply nth_error_In, repeat_spec in Hu. lia.
Qed.

Definition ex_scratch : list ntupel := repeat blank 8.
Lemma ex_scratch_ok : scratch_ok ex_scratch.
Proof. intros t Ht. apply repeat_spec in Ht. now subst. Qed.

Lemma ex_quad : is_quad ex_adj 2 f1 {| tp := [1; 1; 1; 1]; tcorr := f2 |}.
Proof.
  destruct ex_adj_ok as (_ & _ & H).
  exists 1, 1, 1, 1, f2, f1, f2, f1, f2, f1, f2, f1, f2, f1, f2, f1.
  split; [lia|]. do 6 (split; [apply H; lia|]). split; [reflexivity|]. split; vm_compute; reflexivity.
Qed.

Lemma ex_triplet : is_triplet ex_adj 4 ex_counts free_marks f1 {| tp := [1; -2; 1; 1]; tcorr := f2 |}.
Proof.
  destruct ex_adj_ok as (_ & _ & H).
  exists 0, 2, 3, 2, 1, 1, 1, f2, f1, f2, f1, f2, f1.
  split; [lia|]. split; [lia|]. split; [lia|]. split; [lia|]. split; [reflexivity|]. split; [lia|].
  split; [apply free_not_used|]. split; [apply free_not_used|]. split; [apply free_not_used|].
  split; [apply H; lia|]. split; [apply H; lia|]. split; [apply H; lia|]. split; [reflexivity|].
  split; vm_compute; reflexivity.
Qed.

(** the pair search on the same lists *)
Lemma ex_pair : is_pair ex_adj 4 ex_counts free_marks f1 {| tp := [-2; 0; -2; 0]; tcorr := f2 |}.
Proof.
  destruct ex_adj_ok as (_ & _ & H).
  exists 1, 3, 2, 0, 0, f2, f1.
  split; [lia|]. split; [lia|]. split; [lia|]. split; [reflexivity|]. split; [lia|].
  split; [apply free_not_used|]. split; [apply free_not_used|]. split; [apply H; lia|].
  split.
  - intros c (_ & _ & _ & l1 & l2 & N1 & N2 & N3). vm_compute in N1. inversion N1; subst.
    vm_compute in N2. inversion N2; subst. vm_compute in N3. inversion N3; subst. reflexivity.
  - split; [reflexivity|]. split; vm_compute; reflexivity.
Qed.

(** C06: a triplet without the third edge is reported *)
Definition bad_triplet : ntupel := {| tp := [0; 1; 0; -2]; tcorr := f2 |}.
Lemma bad_run : exists sc, three_camera_matching bad_adj 4 ex_counts f1 ex_scratch 8 free_marks = Ok (sc, 1) /\
  nth_error sc 0 = Some bad_triplet.
Proof. eexists. split; vm_compute; reflexivity. Qed.

Lemma bad_not_triplet tus : ~ is_triplet bad_adj 4 ex_counts tus f1 bad_triplet.
Proof.
  intros (i1 & i2 & i3 & n1 & p1 & p2 & p3 & x12 & d12 & x13 & d13 & x23 & d23 & H1 & H2 & H3 & H4 & N1 & Hp & _ & _ & _ & E12 & E13 & E23 & Ht & _).
  apply ex_counts_get in N1. subst n1.
  assert (W : wf_adj 4 ex_counts bad_adj) by apply bad_adj_ok.
  assert (R2 : 0 <= p2 < 2).
  { eapply (edge_range 4 ex_counts bad_adj i1 i2 p1 p2 x12 d12 2 2); eauto; try lia.
    - destruct (nth_error ex_counts (Z.to_nat i1)) eqn:E; [apply ex_counts_get in E; congruence|].
      apply nth_error_None in E. change (length ex_counts) with 4%nat in E. lia.
    - destruct (nth_error ex_counts (Z.to_nat i2)) eqn:E; [apply ex_counts_get in E; congruence|].
      apply nth_error_None in E. change (length ex_counts) with 4%nat in E. lia. }
  assert (R3 : 0 <= p3 < 2).
  { eapply (edge_range 4 ex_counts bad_adj i1 i3 p1 p3 x13 d13 2 2); eauto; try lia.
    - destruct (nth_error ex_counts (Z.to_nat i1)) eqn:E; [apply ex_counts_get in E; congruence|].
      apply nth_error_None in E. change (length ex_counts) with 4%nat in E. lia.
    - destruct (nth_error ex_counts (Z.to_nat i3)) eqn:E; [apply ex_counts_get in E; congruence|].
      apply nth_error_None in E. change (length ex_counts) with 4%nat in E. lia. }
  assert (C : (i1 = 0 /\ i2 = 1 /\ i3 = 2) \/ (i1 = 0 /\ i2 = 1 /\ i3 = 3) \/ (i1 = 0 /\ i2 = 2 /\ i3 = 3) \/ (i1 = 1 /\ i2 = 2 /\ i3 = 3)) by lia.
  destruct C as [(-> & -> & ->)|[(-> & -> & ->)|[(-> & -> & ->)|(-> & -> & ->)]]];
    cbv [slots bad_triplet tp map find fst snd] in Ht; cbn in Ht; inversion Ht; subst; try lia.
  revert E23. apply bad_adj_ok.
Qed.

Lemma spurious_witness : exists srt cl counts corrmin flag corrected targets con tg,
  sorts srt /\ wf_adj 4 counts cl /\ distinct_cands cl /\ (forall n, In n counts -> 1 <= n <= NMAX) /\
  coords_ok 4 counts corrected targets /\
  correspondences_from srt NMAX cl counts corrmin 4 flag corrected targets [0; 0; 0; 0] =
      Ok (con, [1; 0; 0; 1], tg) /\
  forall a b i j x d, ~ edge cl a b i j x d.
Proof.
  destruct no_adj_ok as (W & D & Hno).
  destruct (corr4_spurious isort no_adj ex_counts f1 0 ex_coords ex_targets isort_sorts W D ex_counts_ok ex_coords_ok Hno)
    as (con & tg & E & _).
  exists isort, no_adj, ex_counts, f1, 0, ex_coords, ex_targets, con, tg.
  split; [exact isort_sorts|]. split; [exact W|]. split; [exact D|]. split; [exact ex_counts_ok|].
  split; [exact ex_coords_ok|]. split; [exact E|exact Hno].
Qed.

Lemma triplet_witness : exists cl counts accept sc size tus sc' t,
  wf_adj 4 counts cl /\ distinct_cands cl /\ table_ok 4 counts tus /\ scratch_ok sc /\
  three_camera_matching cl 4 counts accept sc size tus = Ok (sc', 1) /\
  nth_error sc' 0 = Some t /\ ~ is_triplet cl 4 counts tus accept t.
Proof.
  destruct bad_adj_ok as (W & D & _). destruct free_marks_ok as (T & _). destruct bad_run as (sc & E & N).
  exists bad_adj, ex_counts, f1, ex_scratch, 8, free_marks, sc, bad_triplet.
  split; [exact W|]. split; [exact D|]. split; [exact T|]. split; [exact ex_scratch_ok|].
  split; [exact E|]. split; [exact N|exact (bad_not_triplet free_marks)].
Qed.

Lemma triplet_genuine cl counts tus accept t :
  (is_triplet cl 4 counts tus accept t -> is_triplet_padded cl 4 counts tus accept t) /\
  (is_triplet_padded cl 4 counts tus accept t -> ~ In 0 (tp t) -> is_triplet cl 4 counts tus accept t).
Proof.
  split.
  - intros (i1 & i2 & i3 & n1 & p1 & p2 & p3 & x12 & d12 & x13 & d13 & x23 & d23 & H).
    exists i1, i2, i3, n1, p1, p2, p3, x12, d12, x13, d13, x23, d23. unfold padded_edge. intuition.
  - intros (i1 & i2 & i3 & n1 & p1 & p2 & p3 & x12 & d12 & x13 & d13 & x23 & d23 & H1 & H2 & H3 & H4 & N1 & Hp & U1 & U2 & U3 & E12 & E13 & E23 & Ht & Hc & Ha) H0.
    exists i1, i2, i3, n1, p1, p2, p3, x12, d12, x13, d13, x23, d23.
    destruct E23 as [E23|(-> & _)]; [intuition|]. exfalso. apply H0. rewrite Ht.
    assert (C : (i1 = 0 /\ i2 = 1 /\ i3 = 2) \/ (i1 = 0 /\ i2 = 1 /\ i3 = 3) \/ (i1 = 0 /\ i2 = 2 /\ i3 = 3) \/ (i1 = 1 /\ i2 = 2 /\ i3 = 3)) by lia.
    destruct C as [(-> & -> & ->)|[(-> & -> & ->)|[(-> & -> & ->)|(-> & -> & ->)]]]; simpl; auto.
Qed.
