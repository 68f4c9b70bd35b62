From Coq Require Import Permutation Sorted.
From Verif Require Import Base F64 Model_corr Spec_corr Proof_corr_take Proof_corr_loops Proof_corr_three Proof_corr_pairs Proof_corr_all Proof_corr_main.
Local Open Scope Z_scope.

(** ---- nested loops as one loop ---- *)
Lemma foldM_nest {S A B} (f : S -> A -> B -> result S) (g : A -> list B) (l1 : list A) s :
  foldM (fun s a => foldM (fun s b => f s a b) (g a) s) l1 s =
  foldM (fun s ab => f s (fst ab) (snd ab)) (flat_map (fun a => map (pair a) (g a)) l1) s.
Proof.
  revert s; induction l1 as [|a l1 IH]; intros s; simpl; auto.
  rewrite foldM_app, foldM_map. simpl. destruct (foldM _ (g a) s); simpl; auto.
Qed.

(** the array [l] with its first entries replaced by [v] *)
Definition pre {A} (v l : list A) : list A := v ++ skipn (length v) l.

Lemma pre_step {A} (v l : list A) x : (length v < length l)%nat ->
  pyset (pre v l) (Z.of_nat (length v)) x = Ok (pre (v ++ [x]) l).
Proof.
  intros H. rewrite pyset_in_range.
  2:{ unfold pre. rewrite app_length, skipn_length. lia. }
  rewrite Nat2Z.id. unfold pre.
  destruct (skipn (length v) l) as [|y t] eqn:E.
  - apply (f_equal (@length A)) in E. rewrite skipn_length in E. simpl in E. lia.
  - rewrite upd_app_len. rewrite <- app_assoc. simpl. f_equal. f_equal. f_equal.
    rewrite app_length. simpl.
    replace (length v + 1)%nat with (1 + length v)%nat by lia.
    change (skipn (1 + length v) l) with (skipn (S (length v)) l).
    clear -E. revert l E. induction (length v) as [|n IH]; intros l E.
    + simpl in E. subst. reflexivity.
    + destruct l as [|z l]; [discriminate|]. cbn [skipn] in *. now apply IH.
Qed.

Definition filled (i : Z) (cand : list (Z * f64 * f64)) (c : correspond) : correspond :=
  {| cp1 := i; cn := Z.of_nat (length cand);
     cp2 := pre (map (fun x => fst (fst x)) cand) (cp2 c);
     ccorr := pre (map (fun x => snd (fst x)) cand) (ccorr c);
     cdist := pre (map snd cand) (cdist c) |}.

Lemma fill_loop cand c : (length cand <= 40)%nat ->
  length (cp2 c) = 40%nat -> length (ccorr c) = 40%nat -> length (cdist c) = 40%nat ->
  foldM (fun c j => do x <- pyget cand j; fill_corr c j x) (zrange 0 (Z.of_nat (length cand))) c =
  Ok {| cp1 := cp1 c; cn := cn c;
     cp2 := pre (map (fun x => fst (fst x)) cand) (cp2 c);
     ccorr := pre (map (fun x => snd (fst x)) cand) (ccorr c);
     cdist := pre (map snd cand) (cdist c) |}.
Proof.
  intros Hl L1 L2 L3.
  destruct (foldM_total (fun done c' =>
    let v := firstn (length done) cand in
    c' = {| cp1 := cp1 c; cn := cn c;
     cp2 := pre (map (fun x => fst (fst x)) v) (cp2 c);
     ccorr := pre (map (fun x => snd (fst x)) v) (ccorr c);
     cdist := pre (map snd v) (cdist c) |})
   (fun c j => do x <- pyget cand j; fill_corr c j x) (zrange 0 (Z.of_nat (length cand))) c) as (s' & E & P).
  - destruct c; reflexivity.
  - intros done a rest s E ->. apply zrange_split in E as (E1 & Ha & Ea).
    assert (Ld : Z.of_nat (length done) = a) by lia. rewrite <- Ld in *. clear Ea E1.
    destruct (pyget_in_range cand (Z.of_nat (length done))) as ([[x1 x2] x3] & -> & Hn); [lia|].
    rewrite Nat2Z.id in Hn. cbn [bind fill_corr cp1 cn cp2 ccorr cdist].
    assert (Lv : length (firstn (length done) cand) = length done) by (rewrite firstn_length; lia).
    pose proof (pre_step (map (fun x : Z * f64 * f64 => fst (fst x)) (firstn (length done) cand)) (cp2 c) x1) as S1.
    pose proof (pre_step (map (fun x : Z * f64 * f64 => snd (fst x)) (firstn (length done) cand)) (ccorr c) x2) as S2.
    pose proof (pre_step (map (@snd (Z * f64) f64) (firstn (length done) cand)) (cdist c) x3) as S3.
    rewrite map_length, Lv in S1, S2, S3.
    rewrite S1, S2, S3 by lia. cbn [bind]. eexists; split; [reflexivity|].
    assert (Ef : firstn (length (done ++ [Z.of_nat (length done)])) cand = firstn (length done) cand ++ [(x1, x2, x3)]).
    { rewrite app_length. simpl. clear -Hn. revert cand Hn. induction (length done) as [|n IH]; intros [|y l] Hn; simpl in *; try discriminate.
      - now inversion Hn.
      - rewrite IH; auto. }
    rewrite Ef, !map_app. reflexivity.
  - rewrite E, P. rewrite zrange_length. rewrite firstn_all2 by lia. reflexivity.
Qed.

Section MP.
Variable cands : Z -> Z -> Z -> result (list (Z * f64 * f64)).

(** cells visited *)
Definition cells (nc : Z) (counts : list Z) : list (Z * (Z * Z)) :=
  flat_map (fun i1 => map (pair i1) (flat_map (fun i2 => map (pair i2) (zrange 0 (nth (Z.to_nat i1) counts 0))) (zrange (i1 + 1) nc))) (zrange 0 (nc - 1)).

Lemma cells_in nc counts a b i : In (a, (b, i)) (cells nc counts) <->
  0 <= a < b /\ b < nc /\ 0 <= i < nth (Z.to_nat a) counts 0.
Proof.
  unfold cells. rewrite in_flat_map. split.
  - intros (x & Hx & H). apply in_map_iff in H as ((y & k) & E & H). inversion E; subst.
    apply in_flat_map in H as (z & Hz & H). apply in_map_iff in H as (k' & E' & H). inversion E'; subst.
    apply In_zrange in Hx, Hz, H. lia.
  - intros (H1 & H2 & H3). exists a. split; [apply In_zrange; lia|].
    apply in_map. apply in_flat_map. exists b. split; [apply In_zrange; lia|].
    apply in_map. apply In_zrange. lia.
Qed.

Definition cellf (cl : adj) (ab : Z * (Z * Z)) : result adj :=
  let i1 := fst ab in let i2 := fst (snd ab) in let i := snd (snd ab) in
        do c <- getc cl i1 i2 i;
        let c := {| cp1 := i; cn := cn c; cp2 := cp2 c; ccorr := ccorr c; cdist := cdist c |} in
        do cand <- cands i1 i2 i;
        let count := Z.min (Z.of_nat (length cand)) MAXCAND in
        do c <- foldM (fun c j => do x <- pyget cand j; fill_corr c j x) (zrange 0 count) c;
        setc cl i1 i2 i {| cp1 := cp1 c; cn := count; cp2 := cp2 c; ccorr := ccorr c; cdist := cdist c |}.

Lemma match_pairs_flat nc counts cl : length counts = Z.to_nat nc ->
  match_pairs cands nc counts cl = foldM cellf (cells nc counts) cl.
Proof.
  intros L. unfold match_pairs, cells.
  rewrite <- (foldM_nest (fun s a bi => cellf s (a, bi)) (fun i1 => flat_map (fun i2 => map (pair i2) (zrange 0 (nth (Z.to_nat i1) counts 0))) (zrange (i1 + 1) nc))).
  apply foldM_ext. intros s a Ha. apply In_zrange in Ha.
  rewrite <- (foldM_nest (fun s b i => cellf s (a, (b, i))) (fun _ => zrange 0 (nth (Z.to_nat a) counts 0))).
  apply foldM_ext. intros s' b Hb.
  destruct (pyget_in_range counts a) as (cnt & E & En); [lia|]. rewrite E. cbn [bind].
  erewrite nth_error_nth by exact En. reflexivity.
Qed.

Definition cell_at (cl : adj) (a b i : nat) : option correspond :=
  match nth_error cl a with
  | Some l1 => match nth_error l1 b with Some l2 => nth_error l2 i | None => None end
  | None => None end.

Lemma entry_cell_at cl a b i c : 0 <= a -> 0 <= b -> 0 <= i ->
  (entry cl a b i c <-> cell_at cl (Z.to_nat a) (Z.to_nat b) (Z.to_nat i) = Some c).
Proof.
  intros Ha Hb Hi. unfold entry, cell_at. split.
  - intros (_ & _ & _ & l1 & l2 & E1 & E2 & E3). now rewrite E1, E2, E3.
  - destruct (nth_error cl (Z.to_nat a)) as [l1|] eqn:E1; [|discriminate].
    destruct (nth_error l1 (Z.to_nat b)) as [l2|] eqn:E2; [|discriminate].
    intros E3. split; auto. split; auto. split; auto. exists l1, l2. auto.
Qed.

Lemma getc_cell cl a b i c : 0 <= a -> 0 <= b -> 0 <= i ->
  cell_at cl (Z.to_nat a) (Z.to_nat b) (Z.to_nat i) = Some c -> getc cl a b i = Ok c.
Proof.
  intros Ha Hb Hi. unfold cell_at, getc.
  destruct (nth_error cl (Z.to_nat a)) as [l1|] eqn:E1; [|discriminate].
  destruct (nth_error l1 (Z.to_nat b)) as [l2|] eqn:E2; [|discriminate]. intros E3.
  rewrite (pyget_nonneg cl a l1 Ha E1). cbn [bind].
  rewrite (pyget_nonneg l1 b l2 Hb E2). cbn [bind].
  apply pyget_nonneg; auto.
Qed.

Lemma setc_cell cl a b i c c0 : 0 <= a -> 0 <= b -> 0 <= i ->
  cell_at cl (Z.to_nat a) (Z.to_nat b) (Z.to_nat i) = Some c0 ->
  exists cl', setc cl a b i c = Ok cl' /\
    forall a' b' i', cell_at cl' a' b' i' =
      if (Nat.eqb a' (Z.to_nat a) && Nat.eqb b' (Z.to_nat b) && Nat.eqb i' (Z.to_nat i))%bool then Some c else cell_at cl a' b' i'.
Proof.
  intros Ha Hb Hi. unfold cell_at, setc.
  destruct (nth_error cl (Z.to_nat a)) as [l1|] eqn:E1; [|discriminate].
  destruct (nth_error l1 (Z.to_nat b)) as [l2|] eqn:E2; [|discriminate]. intros E3.
  rewrite (pyget_nonneg cl a l1 Ha E1). cbn [bind].
  rewrite (pyget_nonneg l1 b l2 Hb E2). cbn [bind].
  assert (N1 : (Z.to_nat a < length cl)%nat) by (apply nth_error_Some; congruence).
  assert (N2 : (Z.to_nat b < length l1)%nat) by (apply nth_error_Some; congruence).
  assert (N3 : (Z.to_nat i < length l2)%nat) by (apply nth_error_Some; congruence).
  rewrite !pyset_in_range by lia. cbn [bind]. rewrite pyset_in_range by lia. cbn [bind].
  rewrite pyset_in_range by lia.
  eexists; split; [reflexivity|]. intros a' b' i'.
  destruct (Nat.eqb_spec a' (Z.to_nat a)) as [->|]; cbn [andb].
  2:{ now rewrite nth_error_upd_neq by auto. }
  rewrite nth_error_upd_eq by auto. rewrite E1.
  destruct (Nat.eqb_spec b' (Z.to_nat b)) as [->|]; cbn [andb].
  2:{ now rewrite nth_error_upd_neq by auto. }
  rewrite nth_error_upd_eq by auto. rewrite E2.
  destruct (Nat.eqb_spec i' (Z.to_nat i)) as [->|].
  - now rewrite nth_error_upd_eq by auto.
  - now rewrite nth_error_upd_neq by auto.
Qed.

Lemma empty_cell nc maxt a b i : (a < nc)%nat -> (b < nc)%nat -> (i < maxt)%nat ->
  cell_at (empty_adj nc maxt) a b i = Some empty_correspond.
Proof.
  intros. unfold cell_at, empty_adj. rewrite nth_error_repeat by auto. rewrite nth_error_repeat by auto.
  now rewrite nth_error_repeat by auto.
Qed.

Lemma empty_cell_inv nc maxt a b i c : cell_at (empty_adj nc maxt) a b i = Some c -> c = empty_correspond.
Proof.
  unfold cell_at, empty_adj. intros H.
  destruct (nth_error (repeat (repeat (repeat empty_correspond maxt) nc) nc) a) eqn:E1; [|discriminate].
  apply nth_error_In, repeat_spec in E1. subst.
  destruct (nth_error (repeat (repeat empty_correspond maxt) nc) b) eqn:E1; [|discriminate].
  apply nth_error_In, repeat_spec in E1. subst.
  apply nth_error_In, repeat_spec in H. auto.
Qed.

Lemma cells_nodup nc counts : NoDup (cells nc counts).
Proof.
  assert (G : forall (A B : Type) (g : A -> list B) l, NoDup l -> (forall a, In a l -> NoDup (g a)) ->
     NoDup (flat_map (fun a => map (pair a) (g a)) l)).
  { intros A B g l. induction l as [|a l IH]; intros ND Hg; simpl; [constructor|].
    inversion ND; subst. 
    assert (D : forall l1 l2 : list (A * B), NoDup l1 -> NoDup l2 -> (forall x, In x l1 -> ~ In x l2) -> NoDup (l1 ++ l2)).
    { clear. intros l1 l2 H1 H2 H. induction l1 as [|x l1 IH]; simpl; auto. inversion H1; subst.
      constructor.
      - rewrite in_app_iff. intros [?|?]; auto. apply (H x); simpl; auto.
      - apply IH; auto. intros y Hy. apply H. simpl; auto. }
    apply D.
    - apply FinFun.Injective_map_NoDup; [intros x y E; now inversion E|apply Hg; simpl; auto].
    - apply IH; auto. intros; apply Hg; simpl; auto.
    - intros [x y] Hx Hy. apply in_map_iff in Hx as (z & E & _). inversion E; subst.
      apply in_flat_map in Hy as (a' & Ha' & Hy). apply in_map_iff in Hy as (w & E' & _). inversion E'; subst. auto. }
  assert (ZN : forall a b, NoDup (zrange a b)).
  { intros a b. unfold zrange. apply FinFun.Injective_map_NoDup; [intros x y E; lia|apply seq_NoDup]. }
  unfold cells. apply (G Z (Z * Z)%type); auto.
Qed.

Lemma match_pairs_cells nc counts maxt : 0 <= nc -> length counts = Z.to_nat nc ->
  (forall n, In n counts -> 0 <= n <= Z.of_nat maxt) -> cands_ok cands nc counts ->
  exists cl, match_pairs cands nc counts (empty_adj (Z.to_nat nc) maxt) = Ok cl /\
    forall a b i, (In (Z.of_nat a, (Z.of_nat b, Z.of_nat i)) (cells nc counts) ->
        exists l, cands (Z.of_nat a) (Z.of_nat b) (Z.of_nat i) = Ok l /\ cell_at cl a b i = Some (filled (Z.of_nat i) l empty_correspond)) /\
      (~ In (Z.of_nat a, (Z.of_nat b, Z.of_nat i)) (cells nc counts) ->
        cell_at cl a b i = cell_at (empty_adj (Z.to_nat nc) maxt) a b i).
Proof.
  intros Hnc Lc HN HC. rewrite match_pairs_flat by auto.
  destruct (foldM_total (fun done cl => forall a b i,
     (In (Z.of_nat a, (Z.of_nat b, Z.of_nat i)) done ->
        exists l, cands (Z.of_nat a) (Z.of_nat b) (Z.of_nat i) = Ok l /\ cell_at cl a b i = Some (filled (Z.of_nat i) l empty_correspond)) /\
      (~ In (Z.of_nat a, (Z.of_nat b, Z.of_nat i)) done ->
        cell_at cl a b i = cell_at (empty_adj (Z.to_nat nc) maxt) a b i))
    cellf (cells nc counts) (empty_adj (Z.to_nat nc) maxt)) as (cl & E & P).
  - intros a b i. split; [intros []|auto].
  - intros done (a & (b & i)) rest cl E P.
    assert (Hin : In (a, (b, i)) (cells nc counts)) by (rewrite E; apply in_or_app; right; left; auto).
    assert (ND : ~ In (a, (b, i)) done).
    { pose proof (cells_nodup nc counts) as ND. rewrite E in ND. apply NoDup_remove_2 in ND.
      intros H; apply ND, in_or_app; auto. }
    apply cells_in in Hin as (Hab & Hb & Hi).
    assert (Na : exists na, nth_error counts (Z.to_nat a) = Some na).
    { destruct (nth_error counts (Z.to_nat a)) eqn:En; eauto. apply nth_error_None in En; lia. }
    assert (Nb : exists nb, nth_error counts (Z.to_nat b) = Some nb).
    { destruct (nth_error counts (Z.to_nat b)) eqn:En; eauto. apply nth_error_None in En; lia. }
    destruct Na as (na & Na), Nb as (nb & Nb).
    rewrite (nth_error_nth _ _ _ Na) in Hi.
    destruct (HC a b i na nb Hab Hb Na Nb Hi) as (l & El & Ll & _ & _).
    pose proof (HN na (nth_error_In _ _ Na)) as Hmax.
    assert (Hc : cell_at cl (Z.to_nat a) (Z.to_nat b) (Z.to_nat i) = Some empty_correspond).
    { rewrite (proj2 (P (Z.to_nat a) (Z.to_nat b) (Z.to_nat i))).
      - apply empty_cell; lia.
      - rewrite !Z2Nat.id by lia. auto. }
    unfold cellf. cbn [fst snd].
    rewrite (getc_cell cl a b i empty_correspond) by (auto; lia). cbn [bind]. rewrite El. cbn [bind].
    assert (Emin : Z.min (Z.of_nat (length l)) MAXCAND = Z.of_nat (length l)) by (unfold MAXCAND; lia).
    rewrite Emin.
    rewrite fill_loop by (auto || reflexivity). cbn [bind cp1 cn cp2 ccorr cdist].
    destruct (setc_cell cl a b i (filled i l empty_correspond) empty_correspond) as (cl' & E' & P'); auto; try lia.
    exists cl'. split; [exact E'|].
    intros a' b' i'. rewrite P'. 
    destruct (Nat.eqb_spec a' (Z.to_nat a)) as [Ea|Ea]; cbn [andb];
    [destruct (Nat.eqb_spec b' (Z.to_nat b)) as [Eb|Eb]; cbn [andb];
     [destruct (Nat.eqb_spec i' (Z.to_nat i)) as [Ei|Ei]|]|].
    1:{ subst. rewrite !Z2Nat.id by lia. split.
        - intros _. exists l. auto.
        - intros H. exfalso. apply H. apply in_or_app; right; left; auto. }
    all: destruct (P a' b' i') as (P1 & P2); split;
      [ intros H; apply in_app_or in H as [H|[H|[]]]; [auto|inversion H; subst; lia]
      | intros H; apply P2; intros H'; apply H, in_or_app; auto ].
  - exists cl. split; [exact E|exact P].
Qed.

Lemma pre_nth {A} (v l : list A) k : nth_error (pre v l) k =
  if (k <? length v)%nat then nth_error v k else nth_error l k.
Proof.
  unfold pre. destruct (Nat.ltb_spec k (length v)).
  - now rewrite nth_error_app1.
  - rewrite nth_error_app2 by auto. rewrite <- (firstn_skipn (length v) l) at 2.
    destruct (Nat.le_gt_cases (length l) (length v)).
    + rewrite skipn_all2 by auto. rewrite app_nil_r. rewrite firstn_all2 by lia.
      rewrite (proj2 (nth_error_None l k)) by lia. now destruct (k - length v)%nat.
    + rewrite nth_error_app2 by (rewrite firstn_length; lia). f_equal. rewrite firstn_length. lia.
Qed.

Lemma pre_length {A} (v l : list A) : (length v <= length l)%nat -> length (pre v l) = length l.
Proof. intros. unfold pre. rewrite app_length, skipn_length. lia. Qed.

Theorem match_pairs_exact nc counts maxt : 0 <= nc -> length counts = Z.to_nat nc ->
  (forall n, In n counts -> 0 <= n <= Z.of_nat maxt) -> cands_ok cands nc counts ->
  exists cl, match_pairs cands nc counts (empty_adj (Z.to_nat nc) maxt) = Ok cl /\
    wf_adj nc counts cl /\ distinct_cands cl /\
    (forall a b i na, 0 <= a < b -> b < nc -> nth_error counts (Z.to_nat a) = Some na -> 0 <= i < na ->
       forall j x d, edge cl a b i j x d <-> exists l, cands a b i = Ok l /\ In (j, x, d) l).
Proof.
  intros Hnc Lc HN HC.
  destruct (match_pairs_cells nc counts maxt Hnc Lc HN HC) as (cl & E & P). exists cl.
  assert (Hcell : forall a b i na nb, 0 <= a < b -> b < nc -> nth_error counts (Z.to_nat a) = Some na -> 
     nth_error counts (Z.to_nat b) = Some nb -> 0 <= i < na ->
     exists l, cands a b i = Ok l /\ (length l <= 40)%nat /\ (forall x, In x l -> 0 <= fst (fst x) < nb) /\
       NoDup (map (fun x => fst (fst x)) l) /\ 
       forall c, entry cl a b i c <-> c = filled i l empty_correspond).
  { intros a b i na nb Hab Hb Na Nb Hi. 
    destruct (HC a b i na nb Hab Hb Na Nb Hi) as (l & El & Ll & R & ND).
    exists l. split; auto. split; auto. split; auto. split; auto.
    intros c. rewrite entry_cell_at by lia.
    destruct (P (Z.to_nat a) (Z.to_nat b) (Z.to_nat i)) as (P1 & _).
    rewrite !Z2Nat.id in P1 by lia. destruct P1 as (l' & El' & Ec).
    { apply cells_in. rewrite (nth_error_nth _ _ _ Na). lia. }
    rewrite El in El'. inversion El'; subst l'. rewrite Ec. split; intros H; congruence. }
  split; [exact E|]. split; [|split].
  - split; [exact Lc|]. split; [intros n Hn; specialize (HN n Hn); lia|].
    intros a b i na nb Hab Hb Na Nb Hi.
    destruct (Hcell a b i na nb Hab Hb Na Nb Hi) as (l & El & Ll & R & ND & Hc).
    exists (filled i l empty_correspond). split; [apply Hc; auto|].
    unfold wf_entry, filled, empty_correspond. cbn [cp1 cn cp2 ccorr cdist].
    split; auto. split; [unfold MAXCAND; lia|].
    split; [rewrite pre_length; rewrite ?map_length, ?repeat_length; auto|].
    split; [rewrite pre_length; rewrite ?map_length, ?repeat_length; auto|].
    split; [rewrite pre_length; rewrite ?map_length, ?repeat_length; auto|].
    split; [|split].
    + intros k j Hj. rewrite pre_nth, map_length in Hj.
      destruct (Nat.ltb_spec k (length l)).
      * replace (Z.of_nat k <? Z.of_nat (length l)) with true by lia.
        rewrite nth_error_map in Hj. destruct (nth_error l k) as [x|] eqn:Ex; [|discriminate].
        cbn [option_map] in Hj. inversion Hj; subst. apply R. eauto using nth_error_In.
      * replace (Z.of_nat k <? Z.of_nat (length l)) with false by lia.
        apply nth_error_In, repeat_spec in Hj. auto.
    + intros k x Hk Hx. rewrite pre_nth, map_length in Hx. destruct (Nat.ltb_spec k (length l)); [lia|].
      apply nth_error_In, repeat_spec in Hx. auto.
    + intros k x Hk Hx. rewrite pre_nth, map_length in Hx. destruct (Nat.ltb_spec k (length l)); [lia|].
      apply nth_error_In, repeat_spec in Hx. auto.
  - intros a b i c k k' j He Hk Hk' N N'.
    assert (Hpos : 0 <= a /\ 0 <= b /\ 0 <= i) by (destruct He as (?&?&?&_); auto).
    pose proof He as He0.
    apply entry_cell_at in He0; try lia.
    destruct (P (Z.to_nat a) (Z.to_nat b) (Z.to_nat i)) as (P1 & P2).
    rewrite !Z2Nat.id in P1, P2 by lia.
    destruct (in_dec (fun x y : Z * (Z * Z) => ltac:(decide equality; [decide equality; apply Z.eq_dec|apply Z.eq_dec])) (a, (b, i)) (cells nc counts)) as [Hi|Hi].
    + clear P1 P2. apply cells_in in Hi as (Hab & Hb & Hi).
      assert (Na : exists na, nth_error counts (Z.to_nat a) = Some na).
      { destruct (nth_error counts (Z.to_nat a)) eqn:En; eauto. apply nth_error_None in En; lia. }
      assert (Nb : exists nb, nth_error counts (Z.to_nat b) = Some nb).
      { destruct (nth_error counts (Z.to_nat b)) eqn:En; eauto. apply nth_error_None in En; lia. }
      destruct Na as (na & Na), Nb as (nb & Nb). rewrite (nth_error_nth _ _ _ Na) in Hi.
      destruct (Hcell a b i na nb Hab Hb Na Nb Hi) as (l & El & Ll & R & ND & Hc).
      apply Hc in He. subst c. unfold filled in *. cbn [cn cp2] in *.
      rewrite pre_nth, map_length in N, N'.
      destruct (Nat.ltb_spec k (length l)); [|lia]. destruct (Nat.ltb_spec k' (length l)); [|lia].
      rewrite NoDup_nth_error in ND. apply ND; [rewrite map_length; lia|congruence].
    + rewrite P2 in He0 by auto. apply empty_cell_inv in He0. subst c. simpl in Hk. lia.
  - intros a b i na Hab Hb Na Hi j x d.
    assert (Nb : exists nb, nth_error counts (Z.to_nat b) = Some nb).
    { destruct (nth_error counts (Z.to_nat b)) eqn:En; eauto. apply nth_error_None in En; lia. }
    destruct Nb as (nb & Nb).
    destruct (Hcell a b i na nb Hab Hb Na Nb Hi) as (l & El & Ll & R & ND & Hc).
    split.
    + intros (c & k & He & Hk & N1 & N2 & N3). apply Hc in He. subst c. unfold filled in *.
      cbn [cn cp2 ccorr cdist] in *. rewrite pre_nth, map_length in N1. rewrite pre_nth, map_length in N2. rewrite pre_nth, map_length in N3.
      destruct (Nat.ltb_spec k (length l)); [|lia].
      rewrite nth_error_map in N1. rewrite nth_error_map in N2. rewrite nth_error_map in N3. destruct (nth_error l k) as [[[y1 y2] y3]|] eqn:Ex; [|discriminate].
      cbn in N1, N2, N3. inversion N1; inversion N2; inversion N3; subst.
      exists l. split; auto. eauto using nth_error_In.
    + intros (l' & El' & Hx). rewrite El in El'. inversion El'; subst l'.
      apply In_nth_error in Hx as (k & Hx).
      assert (k < length l)%nat by (apply nth_error_Some; congruence).
      exists (filled i l empty_correspond), k. split; [apply Hc; auto|]. unfold filled. cbn [cn cp2 ccorr cdist].
      split; [lia|]. rewrite !pre_nth, !map_length, !nth_error_map, !Hx.
      destruct (Nat.ltb_spec k (length l)); [|lia]. cbn. auto.
Qed.
End MP.
