(** Property C35, continued: peak_fit_new fails on every image. *)
From Verif Require Import F64 Model_peak2 Lib Base.
Local Open Scope Z_scope.

(** what scipy.ndimage.label promises: every pixel that is set is in a component, and components are made of such pixels *)
Definition labels (label : list (list bool) -> list (list (nat * nat))) : Prop := forall m,
  (forall i j, pix false m (i, j) = true -> exists c, In c (label m) /\ In (i, j) c) /\
  (forall c, In c (label m) -> c <> [] /\ forall p, In p c -> pix false m p = true).
(** a filtered image of the same size, without NaN *)
Definition filters (gaussian : image -> image) (im : image) : Prop :=
  map (@length f64) (gaussian im) = map (@length f64) im /\ forall v, In v (concat (gaussian im)) -> is_nan v = false.

Lemma greatest (l : list f64) : l <> [] -> (forall v, In v l -> is_nan v = false) -> exists t, In t l /\ forall v, In v l -> fle v t = true.
Proof.
  induction l as [|a l IH]; [congruence|]. intros _ H. destruct l as [|b l].
  - exists a. split; [now left|]. intros v [<-|[]]. apply fle_refl. apply H. now left.
  - destruct IH as (t & T1 & T2); [discriminate|intros v Hv; apply H; now right|].
    destruct (fle_total a t) as [E|E]; [apply H; now left|apply H; now right| |].
    + exists t. split; [now right|]. intros v [<-|Hv]; auto.
    + exists a. split; [now left|]. intros v [<-|Hv]; [apply fle_refl; apply H; now left|]. eapply fle_trans; [apply T2|]; eauto.
Qed.
Lemma pix_in (m : image) i j v : pix fzero m (i, j) = v -> (i < length m)%nat -> (j < length (nth i m []))%nat -> In v (concat m).
Proof.
  intros <- Hi Hj. unfold pix. cbn [fst snd]. apply in_concat. exists (nth i m []). split; [now apply nth_In|now apply nth_In].
Qed.
Lemma in_pix (m : image) v : In v (concat m) -> exists i j, (i < length m)%nat /\ (j < length (nth i m []))%nat /\ pix fzero m (i, j) = v.
Proof.
  intros H. apply in_concat in H as (row & H1 & H2). apply (In_nth _ _ []) in H1 as (i & Hi & E). apply (In_nth _ _ fzero) in H2 as (j & Hj & E').
  exists i, j. unfold pix. cbn [fst snd]. rewrite E. auto.
Qed.
Lemma greater_le a b t : fle a t = true -> fle b t = true -> fle (greater a b) t = true.
Proof. unfold greater. destruct (flt a b); auto. Qed.
Lemma fold_greater (m : image) t l : forall a, fle a t = true -> fle t a = true -> (forall q, In q l -> fle (pix fzero m q) t = true) ->
  let r := fold_left (fun a q => greater a (pix fzero m q)) l a in fle r t = true /\ fle t r = true.
Proof.
  induction l as [|q l IH]; intros a H1 H2 H; cbn [fold_left]; [auto|]. apply IH; [apply greater_le; auto; apply H; now left| |intros p Hp; apply H; now right].
  unfold greater. destruct (flt a (pix fzero m q)) eqn:E; auto. apply flt_fle in E. eapply fle_trans; eauto.
Qed.
Lemma fle_anti a b : fle a b = true -> fle b a = true -> feq a b = true.
Proof.
  intros H1 H2. apply feq_key. destruct (fle_not_nan _ _ H1) as (N1 & N2). split; auto. split; auto.
  pose proof H1 as H3. apply fle_kle in H1 as (_ & _ & [K1|K1]); auto. exfalso. assert (F : flt a b = true) by (apply flt_klt; auto).
  pose proof (fle_flt_trans _ _ _ H2 F) as X. now rewrite flt_irrefl in X.
Qed.
Lemma mirrored_lt n i : (0 < n)%nat -> (mirrored n i < n)%nat.
Proof. intros H. unfold mirrored. destruct (Z.ltb_spec i 0); [lia|]. destruct (Z.geb_spec i (Z.of_nat n)); lia. Qed.

Lemma nth_map_seq {A} (f : nat -> A) n i d : (i < n)%nat -> nth i (map f (seq 0 n)) d = f i.
Proof. intros H. rewrite (nth_indep _ d (f O)) by (rewrite map_length, seq_length; lia). rewrite map_nth. now rewrite seq_nth. Qed.

(** A smoothed image of any size, as long as it is not ragged, has a pixel that is as high as all around it. *)
Lemma has_maximum (sm : image) cols : concat sm <> [] -> (forall row, In row sm -> length row = cols) -> (forall v, In v (concat sm) -> is_nan v = false) ->
  exists i j, pix false (maxima sm) (i, j) = true.
Proof.
  intros H0 HC HN. destruct (greatest _ H0 HN) as (t & T1 & T2). apply in_pix in T1 as (i & j & Hi & Hj & E). exists i, j.
  assert (RC : forall k, (k < length sm)%nat -> length (nth k sm []) = cols) by (intros k Hk; apply HC; now apply nth_In).
  unfold maxima. unfold pix at 1. cbn [fst snd]. rewrite nth_map_seq by exact Hi. cbv zeta. rewrite nth_map_seq by exact Hj. rewrite (RC i Hi) in *.
  assert (TT : fle t t = true) by (apply fle_refl, HN; rewrite <- E; eapply pix_in; eauto; now rewrite RC).
  assert (R : let r := max_filter (length sm) cols sm (i, j) in fle r t = true /\ fle t r = true).
  { unfold max_filter. apply fold_greater; try (rewrite E; exact TT). intros (k, l) Hq. apply T2. unfold around in Hq. apply in_flat_map in Hq as (di & _ & Hq).
    apply in_map_iff in Hq as (dj & Q & _). injection Q as Q1 Q2. assert (Hk : (k < length sm)%nat) by (subst k; apply mirrored_lt; lia).
    eapply pix_in; [reflexivity|exact Hk|]. rewrite RC by exact Hk. subst l. apply mirrored_lt. lia. }
  rewrite E. destruct R. now apply fle_anti.
Qed.

(** Refuted: that peak_fit_new returns peaks. For every image, whatever the filter, the labelling and the threshold are, it raises
    ValueError: the centre of a component is taken over a list of its pixels, which has one coordinate, and is unpacked as two. *)
Theorem C35_new_refuted : forall gaussian label round threshold (im : image) cols, labels label -> filters gaussian im -> (forall row, In row im -> length row = cols) ->
  peak_fit_new gaussian label round threshold im = Exn ValueError.
Proof.
  intros gaussian label round threshold im cols HL (F1 & F2) HC. unfold peak_fit_new. destruct (concat (gaussian im)) as [|v0 vs] eqn:EV; [reflexivity|].
  cbn [np_max bind]. destruct (has_maximum (gaussian im) cols) as (i & j & M).
  - rewrite EV. discriminate.
  - intros row Hr. apply (in_map (@length f64)) in Hr. rewrite F1 in Hr. apply in_map_iff in Hr as (row' & <- & Hr). now apply HC.
  - rewrite EV. exact F2.
  - destruct (HL (maxima (gaussian im))) as (A & B). destruct (A _ _ M) as (c & Hc & _). destruct (label (maxima (gaussian im))) as [|c0 cs]; [destruct Hc|].
    cbn [foldM]. destruct (B c0 (or_introl eq_refl)) as (Hne & _). destruct c0 as [|q c0]; [congruence|]. unfold one_peak. cbn [map np_max bind center_of_mass rev app unpack2]. reflexivity.
Qed.
Print Assumptions C35_new_refuted.

(** a labelling and an image that meet the hypotheses: one component for every pixel that is set *)
Definition dots (m : list (list bool)) : list (list (nat * nat)) :=
  map (fun p => [p]) (filter (pix false m) (flat_map (fun i => map (fun j => (i, j)) (seq 0 (length (nth i m [])))) (seq 0 (length m)))).
Definition bump : image := map (map f_of_Z) [[0; 1; 0]; [1; 9; 1]; [0; 1; 0]].
Example C35_new_case : labels dots /\ filters (fun m => m) bump /\ maxima bump = [[false; false; false]; [false; true; false]; [false; false; false]] /\
  dots (maxima bump) = [[(1, 1)%nat]].
Proof.
  split; [|split; [|split; vm_compute; reflexivity]].
  - intros m. split.
    + intros i j H. exists [(i, j)]. split; [|now left]. unfold dots. apply in_map_iff. exists (i, j). split; auto. apply filter_In. split; auto.
      assert (Hi : (i < length m)%nat). { destruct (Nat.lt_ge_cases i (length m)) as [|L]; auto. unfold pix in H. cbn [fst snd] in H. rewrite (nth_overflow m) in H by exact L. destruct j; discriminate H. }
      apply in_flat_map. exists i. split; [apply in_seq; lia|]. apply in_map_iff. exists j. split; auto. apply in_seq.
      destruct (Nat.lt_ge_cases j (length (nth i m []))) as [|L]; [lia|]. unfold pix in H. cbn [fst snd] in H. rewrite nth_overflow in H by exact L. discriminate H.
    + intros c Hc. unfold dots in Hc. apply in_map_iff in Hc as (p & <- & Hp). apply filter_In in Hp as (_ & Hp). split; [discriminate|]. intros q [<-|[]]. exact Hp.
  - split; [reflexivity|]. intros v Hv. cbn in Hv. repeat (destruct Hv as [<-|Hv]; [reflexivity|]). destruct Hv.
Qed.
