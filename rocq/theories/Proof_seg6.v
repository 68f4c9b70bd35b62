(** Proofs for C74: locality of the segmentation. *)
From Coq Require Import Permutation Sorted.
From Verif Require Import Base F64 Model_corr Model_seg Spec_seg Proof_seg Proof_seg2 Proof_seg4.
Local Open Scope Z_scope.

(** ---- the raster order ---- *)
Definition before (p q : pixel) : Prop := snd p < snd q \/ snd p = snd q /\ fst p < fst q.
Lemma before_irr p : ~ before p p. Proof. unfold before. lia. Qed.
Lemma before_trans p q r : before p q -> before q r -> before p r. Proof. unfold before. lia. Qed.
Lemma sorted_same : forall a b, StronglySorted before a -> StronglySorted before b -> (forall p, In p a <-> In p b) -> a = b.
Proof.
  induction a as [|x a IH]; intros [|y b] Sa Sb H; auto.
  - exfalso. apply (proj2 (H y)). left. auto.
  - exfalso. apply (proj1 (H x)). left. auto.
  - inversion Sa as [|? ? Sa' Fa]; subst. inversion Sb as [|? ? Sb' Fb]; subst.
    rewrite Forall_forall in Fa, Fb.
    assert (x = y) as ->.
    { destruct (proj1 (H x) (or_introl eq_refl)) as [|I]; [auto|].
      destruct (proj2 (H y) (or_introl eq_refl)) as [|J]; [auto|].
      exfalso. apply (before_irr x). eapply before_trans; [apply Fa, J|apply Fb, I]. }
    f_equal. apply IH; auto. intros p. split; intros I.
    + destruct (proj1 (H p) (or_intror I)) as [<-|]; auto. exfalso. apply (before_irr y), Fa, I.
    + destruct (proj2 (H p) (or_intror I)) as [<-|]; auto. exfalso. apply (before_irr y), Fb, I.
Qed.
Lemma sorted_app : forall a b, StronglySorted before a -> StronglySorted before b -> (forall p q, In p a -> In q b -> before p q) -> StronglySorted before (a ++ b).
Proof.
  induction a as [|x a IH]; intros b Sa Sb H; [auto|]. inversion Sa; subst. cbn. constructor.
  - apply IH; auto. intros p q I J. apply H; auto. right. auto.
  - apply Forall_app. split; auto. apply Forall_forall. intros q J. apply H; [left; auto|auto].
Qed.
Lemma sorted_filter f : forall a, StronglySorted before a -> StronglySorted before (filter f a).
Proof.
  induction 1 as [|x a Sa IH F]; [constructor|]. cbn. destruct (f x); auto. constructor; auto.
  apply Forall_forall. intros q I. apply filter_In in I. rewrite Forall_forall in F. apply F, (proj1 I).
Qed.
Lemma zrange_sorted a b : StronglySorted Z.lt (zrange a b).
Proof.
  remember (Z.to_nat (b - a)) as n eqn:E. revert a E. induction n as [|n IH]; intros a E.
  - assert (zrange a b = []) as ->; [|constructor]. unfold zrange. rewrite <- E. reflexivity.
  - rewrite zrange_cons by lia. constructor; [apply IH; lia|]. apply Forall_forall. intros x I. apply In_zrange in I. lia.
Qed.
Lemma raster_sorted L : StronglySorted before (raster L).
Proof.
  unfold raster. pose proof (zrange_sorted (l_ymin L) (l_ymax L)) as Sy. induction Sy as [|y ys Sy IH F]; [constructor|]. cbn [flat_map].
  apply sorted_app; auto.
  - clear. induction (zrange_sorted (l_xmin L) (l_xmax L)) as [|x xs Sx IH F]; [constructor|]. cbn. constructor; auto.
    apply Forall_forall. intros p I. apply in_map_iff in I as (x' & <- & I). rewrite Forall_forall in F. right. cbn. auto.
  - intros p q I J. apply in_map_iff in I as (x & <- & I). apply in_flat_map in J as (y' & I' & J). apply in_map_iff in J as (x' & <- & J).
    left. cbn. rewrite Forall_forall in F. auto.
Qed.
Lemma In_raster L p : In p (raster L) <-> in_range L p.
Proof.
  unfold raster, in_range. destruct p as [x y]. rewrite in_flat_map. cbn. split.
  - intros (y' & I & J). apply in_map_iff in J as (x' & E & J). injection E as <- <-. apply In_zrange in I, J. lia.
  - intros [? ?]. exists y. split; [apply In_zrange; lia|]. apply in_map_iff. exists x. split; auto. apply In_zrange. lia.
Qed.
Lemma raster_filter B L L' : (forall p, B p = true -> in_range L p) -> (forall p, B p = true -> in_range L' p) ->
  filter B (raster L) = filter B (raster L').
Proof.
  intros H H'. apply sorted_same; try apply sorted_filter, raster_sorted. intros p. rewrite !filter_In, !In_raster. split; intros [_ I]; auto.
Qed.

(** ---- regions in and out of an isolated set ---- *)
Lemma neighbour_around p q : neighbour p q -> around p q.
Proof. destruct p as [a b]. unfold neighbour, around. cbn. intros [->|[->|[->| ->]]]; cbn; (split; [intros E; injection E; lia|lia]). Qed.
Lemma around_sym p q : around p q -> around q p.
Proof. unfold around. intros (N & A & B). split; [congruence|lia]. Qed.

Lemma range_dec L p : in_range L p \/ ~ in_range L p.
Proof. unfold in_range. lia. Qed.
Lemma scanned_range m L ps Rs : scanned m L ps Rs -> forall q, In q (concat Rs) -> in_range L q.
Proof.
  induction 1 as [|ps p Rs R S IH P N HR|ps p Rs S IH P]; intros q J; [destruct J| |auto]. rewrite concat_snoc in J.
  apply in_app_iff in J as [J|J]; auto. apply HR in J. revert J. generalize (fun q => ~ In q (concat Rs)). intros f J.
  induction J as [|r q J IHJ A F]; [apply P|apply A].
Qed.
Section Local.
Variables m m' : image.
Variables L L' : limits.
Variable B : pixel -> bool.
Hypothesis Hiso : isolated m L B.
Hypothesis Hagree : agree_at m m' B.
Hypothesis Hth : l_thres L' = l_thres L.
Hypothesis Hdi : l_disco L' = l_disco L.
Hypothesis Hin : forall p, B p = true -> in_range L p.
Hypothesis Hin' : forall p, B p = true -> in_range L' p.

Lemma reach_bright free s q : l_thres L < grey m s -> reach m L free s q -> l_thres L < grey m q.
Proof. intros H. induction 1; auto. apply H1. Qed.
Lemma reach_range free s q : in_range L s -> reach m L free s q -> in_range L q.
Proof. intros H. induction 1; auto. apply H1. Qed.
Lemma admits_in p q : B p = true -> admits m L p q -> B q = true.
Proof.
  intros Bp (N & Rq & G & _). destruct (B q) eqn:Bq; auto. exfalso. pose proof (Hiso p q Bp (neighbour_around _ _ N) Rq Bq). lia.
Qed.
Lemma admits_out p q : B p = false -> in_range L p -> l_thres L < grey m p -> admits m L p q -> B q = false.
Proof.
  intros Bp Rp G (N & _). destruct (B q) eqn:Bq; auto. exfalso.
  pose proof (Hiso q p Bq (around_sym _ _ (neighbour_around _ _ N)) Rp Bp). lia.
Qed.
Lemma reach_in free s q : B s = true -> reach m L free s q -> B q = true.
Proof. intros H. induction 1; auto. eapply admits_in; eauto. Qed.
Lemma reach_out free s q : B s = false -> in_range L s -> l_thres L < grey m s -> reach m L free s q -> B q = false.
Proof. intros H Rs G R. induction R as [|p q R IH A F]; auto. apply (admits_out p q); auto; [apply (reach_range free s p)|apply (reach_bright free s p)]; auto. Qed.

(** reach and peak in B depend on B only *)
Lemma reach_free (f f' : pixel -> Prop) s q : (forall p, B p = true -> f p -> f' p) -> B s = true -> reach m L f s q -> reach m L f' s q.
Proof.
  intros H Bs R. induction R as [|p q R IH A F]; [constructor|]. eapply reach_grow; eauto. apply H; auto. apply (admits_in p q); auto. apply (reach_in f s p); auto.
Qed.
Lemma peak_free (f f' : pixel -> Prop) s : (forall p, B p = true \/ ~ in_range L p -> (f p <-> f' p)) -> B s = true -> peak m L f s -> peak m L f' s.
Proof.
  intros H Bs (R & F & G & A). split; auto. split; [apply H; auto|]. split; auto. intros q Aq Fq. destruct (B q) eqn:Bq.
  - apply A; auto. apply H; auto.
  - destruct (range_dec L q) as [Rq|Rq]; [pose proof (Hiso s q Bs Aq Rq Bq); lia|]. apply A; auto. apply H; auto.
Qed.
(** every region is inside or outside *)
Lemma scanned_split ps Rs : scanned m L ps Rs -> forall R, In R Rs -> (forall q, In q R -> B q = true) \/ (forall q, In q R -> B q = false).
Proof.
  induction 1 as [|ps p Rs R0 S IH P N HR|ps p Rs S IH P]; intros R I; [destruct I| |auto].
  apply in_app_iff in I as [I|[<-|[]]]; auto. destruct (B p) eqn:Bp.
  - left. intros q J. apply HR in J. eapply reach_in; eauto.
  - right. intros q J. apply HR in J. eapply reach_out; eauto; apply P.
Qed.
Lemma existsb_in R : (forall q, In q R -> B q = false) -> existsb B R = false.
Proof. induction R as [|x R IH]; intros H; auto. cbn. rewrite (H x) by (left; auto). apply IH. intros q I. apply H. right. auto. Qed.
Lemma concat_in ps Rs : scanned m L ps Rs -> forall q, B q = true \/ ~ in_range L q -> (In q (concat Rs) <-> In q (concat (regions_in B Rs))).
Proof.
  intros S q [Bq|Rq]; [|split; intros J; exfalso; apply Rq, (scanned_range _ _ _ _ S); auto;
    apply in_concat in J as (R & I & J); apply in_concat; exists R; apply filter_In in I; tauto]. rewrite !in_concat. split; intros (R & I & J).
  - exists R. split; auto. apply filter_In. split; auto. apply existsb_exists. eauto.
  - exists R. apply filter_In in I. tauto.
Qed.
Lemma filter_snoc {A} (f : A -> bool) l x : filter f (l ++ [x]) = if f x then filter f l ++ [x] else filter f l.
Proof. rewrite filter_app. cbn. destruct (f x); auto. apply app_nil_r. Qed.
Lemma scanned_restrict ps Rs : scanned m L ps Rs -> scanned m L (filter B ps) (regions_in B Rs).
Proof.
  induction 1 as [|ps p Rs R S IH P N HR|ps p Rs S IH P]; [constructor| |].
  - pose proof (concat_in _ _ S) as C. unfold regions_in in *. rewrite !filter_snoc. destruct (B p) eqn:Bp.
    + assert (existsb B R = true) as ->. { apply existsb_exists. exists p. split; auto. apply HR. constructor. }
      constructor; auto.
      * eapply peak_free; eauto. intros q Bq. specialize (C _ Bq); cbn beta; tauto.
      * intros q. rewrite HR. split; apply reach_free; auto; intros r Br; specialize (C _ (or_introl Br)); cbn beta; tauto.
    + rewrite existsb_in; auto. intros q J. apply HR in J. eapply reach_out; eauto; apply P.
  - pose proof (concat_in _ _ S) as C. rewrite filter_snoc. destruct (B p) eqn:Bp; auto. constructor; auto. intros Q. apply P.
    eapply peak_free; eauto. intros q Bq. specialize (C _ Bq); cbn beta; tauto.
Qed.
Lemma admits_transfer p q : B p = true -> B q = true -> (admits m L p q <-> admits m' L' p q).
Proof.
  intros Bp Bq. destruct (Hagree p Bp) as [E _]. destruct (Hagree q Bq) as [E' A].
  unfold admits. rewrite Hth, Hdi, E, E'. split; intros (N & R & G & D & F); (split; [auto|split; [auto|split; [auto|split; [auto|]]]]); intros r Nr.
  - rewrite A by (apply neighbour_around; auto). auto.
  - rewrite <- A by (apply neighbour_around; auto). auto.
Qed.
End Local.


Lemma agree_sym m m' B : agree_at m m' B -> agree_at m' m B.
Proof. intros A p Bp. destruct (A p Bp) as [E F]. split; [auto|]. intros q Aq. symmetry. auto. Qed.

Lemma reach_transfer m m' L L' B free s q : isolated m L B -> isolated m' L' B -> agree_at m m' B -> l_thres L' = l_thres L -> l_disco L' = l_disco L ->
  (forall p, B p = true -> in_range L p) -> (forall p, B p = true -> in_range L' p) ->
  B s = true -> reach m L free s q -> reach m' L' free s q.
Proof.
  intros I I' A T D H H' Bs R. induction R as [|p q R IH Ad F]; [constructor|]. eapply reach_grow; eauto.
  assert (B p = true) as Bp by (apply (reach_in m L B I free s p); auto).
  assert (B q = true) as Bq by (apply (admits_in m L B I p q); auto).
  apply (admits_transfer m m' L L' B); auto.
Qed.
Lemma peak_transfer m m' L L' B free s : agree_at m m' B -> l_thres L' = l_thres L -> (forall p, B p = true -> in_range L' p) ->
  B s = true -> peak m L free s -> peak m' L' free s.
Proof.
  intros A T H' Bs (R & F & G & P). destruct (A s Bs) as [E Ea]. split; auto. split; auto. rewrite T, E. split; auto.
  intros q Aq Fq. rewrite Ea by auto. auto.
Qed.
Lemma scanned_transfer m m' L L' B : isolated m L B -> isolated m' L' B -> agree_at m m' B -> l_thres L' = l_thres L -> l_disco L' = l_disco L ->
  (forall p, B p = true -> in_range L p) -> (forall p, B p = true -> in_range L' p) ->
  forall ps Rs, scanned m L ps Rs -> (forall p, In p ps -> B p = true) -> scanned m' L' ps Rs.
Proof.
  intros I I' A T D H H'.
  pose proof (agree_sym _ _ _ A) as A'.
  induction 1 as [|ps p Rs R S IH P N HR|ps p Rs S IH P]; intros Hp; [constructor| |].
  - assert (B p = true) as Bp by (apply Hp, in_app_iff; right; left; auto).
    constructor; auto. { apply IH. intros q J. apply Hp, in_app_iff. auto. } { apply (peak_transfer m m' L L' B); auto. }
    intros q. rewrite HR. split; intros X; [apply (reach_transfer m m' L L' B); auto|].
    apply (reach_transfer m' m L' L B); auto.
  - assert (B p = true) as Bp by (apply Hp, in_app_iff; right; left; auto).
    constructor; auto. { apply IH. intros q J. apply Hp, in_app_iff. auto. }
    intros Q. apply P. apply (peak_transfer m' m L' L B); auto.
Qed.

(** the regions are determined, up to the order of their pixels *)
Lemma perm_concat : forall Rs Rs' : list (list pixel), Forall2 (@Permutation pixel) Rs Rs' -> forall q, In q (concat Rs) <-> In q (concat Rs').
Proof.
  induction 1 as [|R R' Rs Rs' P F IH]; intros q; [tauto|]. cbn. rewrite !in_app_iff, IH.
  split; intros [J|J]; auto; left; [eapply Permutation_in; eauto|eapply Permutation_in; [apply Permutation_sym|]; eauto].
Qed.
Lemma reach_ext m L (f f' : pixel -> Prop) s q : (forall p, f p -> f' p) -> reach m L f s q -> reach m L f' s q.
Proof. intros H. induction 1; [constructor|eapply reach_grow; eauto]. Qed.
Lemma peak_ext m L (f f' : pixel -> Prop) s : (forall p, f p <-> f' p) -> peak m L f s -> peak m L f' s.
Proof. intros H (R & F & G & P). split; auto. split; [apply H; auto|]. split; auto. intros q A F'. apply P; auto. apply H. auto. Qed.
Lemma scanned_unique m L : forall ps Rs, scanned m L ps Rs -> forall Rs', scanned m L ps Rs' -> Forall2 (@Permutation pixel) Rs Rs'.
Proof.
  induction 1 as [|ps p Rs R S IH P N HR|ps p Rs S IH P]; intros Rs' S'.
  - inversion S' as [E|? ? ? ? ? ? ? ? E|? ? ? ? ? E]; try (destruct ps; discriminate). constructor.
  - inversion S' as [E|ps1 p1 Rs1 R1 S1 P1 N1 HR1 E|ps1 p1 Rs1 S1 P1 E]; [destruct ps; discriminate| |];
      apply app_inj_tail in E as [-> ->]; specialize (IH _ S1); pose proof (perm_concat _ _ IH) as C.
    + apply Forall2_app; auto. constructor; [|constructor]. apply NoDup_Permutation; auto. intros q. rewrite HR, HR1.
      split; apply reach_ext; intros r; rewrite C; auto.
    + exfalso. apply P1. eapply peak_ext; eauto. intros r. cbn. rewrite C. tauto.
  - inversion S' as [E|ps1 p1 Rs1 R1 S1 P1 N1 HR1 E|ps1 p1 Rs1 S1 P1 E]; [destruct ps; discriminate| |];
      apply app_inj_tail in E as [-> ->]; specialize (IH _ S1); pose proof (perm_concat _ _ IH) as C; auto.
    exfalso. apply P. eapply peak_ext; eauto. intros r. cbn. rewrite C. tauto.
Qed.

Theorem regions_local m m' L L' B Rs Rs' : isolated m L B -> isolated m' L' B -> agree_at m m' B -> l_thres L' = l_thres L -> l_disco L' = l_disco L ->
  (forall p, B p = true -> in_range L p) -> (forall p, B p = true -> in_range L' p) ->
  scanned m L (raster L) Rs -> scanned m' L' (raster L') Rs' ->
  Forall2 (@Permutation pixel) (regions_in B Rs) (regions_in B Rs') /\
  (forall R, In R (regions_in B Rs) -> forall q, In q R -> B q = true).
Proof.
  intros I I' A T D H H' S S'. split.
  - apply (scanned_unique m' L' (filter B (raster L'))).
    + rewrite <- (raster_filter B L L') by auto. apply (scanned_transfer m m' L L' B); auto.
      * eapply scanned_restrict; eauto.
      * intros p J. apply filter_In in J. tauto.
    + eapply scanned_restrict; eauto.
  - intros R J q K. apply filter_In in J as [J E]. apply existsb_exists in E as (r & Kr & Br).
    destruct (scanned_split m L B I _ _ S R J) as [X|X]; auto. rewrite X in Br by auto. discriminate.
Qed.

(** ---- targets of equal regions ---- *)
Lemma zsum_perm a b : Permutation a b -> zsum a = zsum b.
Proof.
  induction 1 as [|x l l' P IH|x y l|l l' l'' P IH P' IH']; auto; unfold zsum in *; cbn; lia.
Qed.
Lemma span_perm a b lo hi : Permutation a b -> span a lo hi -> span b lo hi.
Proof.
  intros P (I & J & H). split; [eapply Permutation_in; eauto|]. split; [eapply Permutation_in; eauto|].
  intros v K. apply H. eapply Permutation_in; [apply Permutation_sym|]; eauto.
Qed.
Section Same.
Variables m m' : image.
Variables L L' : limits.
Hypothesis Hrules : same_rules L L'.
Lemma grey_perm R R' : Permutation R R' -> (forall q, In q R -> grey m' q = grey m q) -> zsum (map (grey m') R') = zsum (map (grey m) R).
Proof.
  intros P H. rewrite (zsum_perm _ _ (Permutation_sym (Permutation_map (grey m') P))). f_equal. apply map_ext_in. auto.
Qed.
Lemma accepted_same R R' : Permutation R R' -> (forall q, In q R -> grey m' q = grey m q) -> accepted m L R -> accepted m' L' R'.
Proof.
  intros P H (N & (lx & hx & Sx & X) & (ly & hy & Sy & Y) & G). destruct Hrules as (E1 & E2 & E3 & E4 & E5 & E6 & E7 & E8 & E9).
  unfold accepted. rewrite E3, E4, E5, E6, E7, E8, E9, <- (Permutation_length P), (grey_perm _ _ P H).
  split; auto. split; [exists lx, hx; split; auto; eapply span_perm; [apply Permutation_map|]; eauto|].
  split; [exists ly, hy; split; auto; eapply span_perm; [apply Permutation_map|]; eauto|auto].
Qed.
Lemma describes_same R R' k k' t t' : Permutation R R' -> (forall q, In q R -> grey m' q = grey m q) ->
  describes m L R k t -> describes m' L' R' k' t' -> same_target t t'.
Proof.
  intros P H (A1 & A2 & A3 & (lx & hx & Sx & A4) & (ly & hy & Sy & A5) & A6 & A7 & A8) (B1 & B2 & B3 & (lx' & hx' & Sx' & B4) & (ly' & hy' & Sy' & B5) & B6 & B7 & B8).
  destruct Hrules as (E1 & _).
  assert (forall f : pixel -> Z, zsum (map (fun p => f p * excess m' L' p) R') = zsum (map (fun p => f p * excess m L p) R)) as F.
  { intros f. rewrite (zsum_perm _ _ (Permutation_sym (Permutation_map _ P))). f_equal. apply map_ext_in. intros q J.
    unfold excess. rewrite E1, H by auto. auto. }
  assert (zsum (map (excess m' L') R') = zsum (map (excess m L) R)) as F0.
  { rewrite (zsum_perm _ _ (Permutation_sym (Permutation_map _ P))). f_equal. apply map_ext_in. intros q J.
    unfold excess. rewrite E1, H by auto. auto. }
  assert (t_sumg t' = t_sumg t) as G by congruence.
  destruct (span_unique _ _ _ _ _ (span_perm _ _ _ _ (Permutation_map fst P) Sx) Sx') as [<- <-].
  destruct (span_unique _ _ _ _ _ (span_perm _ _ _ _ (Permutation_map snd P) Sy) Sy') as [<- <-].
  pose proof (F fst) as Fx. pose proof (F snd) as Fy. cbv beta in Fx, Fy. pose proof (Permutation_length P) as PL.
  unfold same_target. split; [rewrite A7, B7, G; do 3 f_equal; exact Fx|]. split; [rewrite A8, B8, G; do 3 f_equal; exact Fy|].
  repeat (split; [congruence|]). congruence.
Qed.
End Same.
Lemma same_rules_sym L L' : same_rules L L' -> same_rules L' L.
Proof. unfold same_rules. intuition congruence. Qed.

(** all regions of both are the same: the targets are the same *)
Lemma snoc_cases {A} (l : list A) : l = [] \/ exists a x, l = a ++ [x].
Proof. destruct l as [|y l]; auto. right. destruct (exists_last (l := y :: l)) as (a & x & E); [discriminate|eauto]. Qed.
Lemma Forall2_snoc_inv {A B} (P : A -> B -> Prop) a x l : Forall2 P (a ++ [x]) l -> exists b y, l = b ++ [y] /\ Forall2 P a b /\ P x y.
Proof.
  intros F. apply Forall2_app_inv_l in F as (b & c & F1 & F2 & ->). inversion F2 as [|? y ? ? ? F3]; subst. inversion F3; subst. eauto.
Qed.
Lemma target_eq t t' : t_pnr t' = t_pnr t -> same_target t t' -> t = t'.
Proof. destruct t, t'. unfold same_target. cbn. intros -> (-> & -> & -> & -> & -> & -> & ->). reflexivity. Qed.
Lemma reported_same m m' L L' : same_rules L L' -> forall Rs ts, reported m L Rs ts -> forall Rs' ts', reported m' L' Rs' ts' ->
  Forall2 (@Permutation pixel) Rs Rs' -> (forall q, In q (concat Rs) -> grey m' q = grey m q) -> ts = ts'.
Proof.
  intros SR. induction 1 as [|Rs ts R t Rp IH Ac De|Rs ts R Rp IH Ac]; intros Rs' ts' Rp' F G.
  - inversion F; subst. inversion Rp' as [|? ? ? ? ? ? ? E|? ? ? ? ? E]; auto; destruct Rs; discriminate.
  - apply Forall2_snoc_inv in F as (Q & R' & -> & F & P). rewrite concat_snoc in G.
    assert (forall q, In q R -> grey m' q = grey m q) as GR by (intros; apply G, in_app_iff; auto).
    inversion Rp' as [E|Q1 ts1 R1 t1 Rp1 Ac1 De1 E|Q1 ts1 R1 Rp1 Ac1 E]; [destruct Q; discriminate| |]; apply app_inj_tail in E as [-> ->].
    + assert (ts = ts1) as -> by (apply (IH _ _ Rp1 F); intros; apply G, in_app_iff; auto).
      f_equal. f_equal. apply target_eq; [|eapply describes_same; eauto]. rewrite (proj1 De), (proj1 De1). auto.
    + exfalso. apply Ac1. eapply accepted_same; eauto.
  - apply Forall2_snoc_inv in F as (Q & R' & -> & F & P). rewrite concat_snoc in G.
    assert (forall q, In q R -> grey m' q = grey m q) as GR by (intros; apply G, in_app_iff; auto).
    inversion Rp' as [E|Q1 ts1 R1 t1 Rp1 Ac1 De1 E|Q1 ts1 R1 Rp1 Ac1 E]; [destruct Q; discriminate| |]; apply app_inj_tail in E as [-> ->].
    + exfalso. apply Ac. eapply accepted_same with (m := m') (L := L') (R := R'); eauto using same_rules_sym, Permutation_sym.
      intros q J. symmetry. apply GR. eapply Permutation_in; [apply Permutation_sym|]; eauto.
    + apply (IH _ _ Rp1 F). intros; apply G, in_app_iff; auto.
Qed.
Lemma regions_all B Rs : (forall R, In R Rs -> exists q, In q R /\ B q = true) -> regions_in B Rs = Rs.
Proof.
  induction Rs as [|R Rs IH]; intros H; auto. unfold regions_in in *. cbn. destruct (H R (or_introl eq_refl)) as (q & I & E).
  assert (existsb B R = true) as -> by (apply existsb_exists; eauto). f_equal. apply IH. intros R' J. apply H. right. auto.
Qed.

(** ---- target_recognition ---- *)
Lemma recognition_eq img tp cam imx imy sx sy :
  snd (requested imx sx) <= im_w img -> snd (requested imy sy) <= im_h img ->
  target_recognition img tp cam imx imy sx sy =
  targ_rec img tp (fst (requested imx sx)) (snd (requested imx sx)) (fst (requested imy sy)) (snd (requested imy sy)) imx imy cam.
Proof.
  intros W H. unfold target_recognition, requested in *. destruct sx as [[a b]|], sy as [[c d]|]; cbn [fst snd] in *;
  (match goal with |- (if ?b then _ else _) = _ => destruct b eqn:E end; [lia|reflexivity]).
Qed.
Lemma recognition_rejects img tp cam imx imy sx sy :
  im_w img < snd (requested imx sx) \/ im_h img < snd (requested imy sy) ->
  target_recognition img tp cam imx imy sx sy = Exn ValueError.
Proof.
  intros H. unfold target_recognition, requested in *. destruct sx as [[a b]|], sy as [[c d]|]; cbn [fst snd] in *;
  (match goal with |- (if ?b then _ else _) = _ => destruct b eqn:E end; [reflexivity|lia]).
Qed.
Lemma recognition_ok img tp cam imx imy sx sy thres :
  imx <= im_w img -> imy <= im_h img -> snd (requested imx sx) <= im_w img -> snd (requested imy sy) <= im_h img ->
  pyget (tpar_gvthresh tp) cam = Ok thres -> 0 <= thres ->
  blobs_below img (scan_range tp thres imx imy sx sy) MAX_TARGETS ->
  exists Rs ts, target_recognition img tp cam imx imy sx sy = Ok ts /\
    scanned img (scan_range tp thres imx imy sx sy) (raster (scan_range tp thres imx imy sx sy)) Rs /\
    reported img (scan_range tp thres imx imy sx sy) Rs ts.
Proof.
  intros H1 H2 H3 H4 G T B. rewrite recognition_eq by auto.
  destruct (targ_rec_ok img tp (fst (requested imx sx)) (snd (requested imx sx)) (fst (requested imy sy)) (snd (requested imy sy)) imx imy cam thres H1 H2 G T B)
    as (Rs & ts & E & S & R & _ & _ & _ & Sc). exists Rs, ts. auto.
Qed.
Lemma clamped_rules tp th a b c d a' b' c' d' imx imy imx' imy' :
  same_rules (clamped tp th a b c d imx imy) (clamped tp th a' b' c' d' imx' imy').
Proof. repeat split. Qed.

Lemma recognition_local img img' tp cam imx imy sx sy imx' imy' sx' sy' thres B ts ts' :
  imx <= im_w img -> imy <= im_h img -> snd (requested imx sx) <= im_w img -> snd (requested imy sy) <= im_h img ->
  imx' <= im_w img' -> imy' <= im_h img' -> snd (requested imx' sx') <= im_w img' -> snd (requested imy' sy') <= im_h img' ->
  pyget (tpar_gvthresh tp) cam = Ok thres -> 0 <= thres ->
  let L := scan_range tp thres imx imy sx sy in
  let L' := scan_range tp thres imx' imy' sx' sy' in
  blobs_below img L MAX_TARGETS -> blobs_below img' L' MAX_TARGETS ->
  agree_at img img' B -> isolated img L B -> isolated img' L' B ->
  (forall p, B p = true -> in_range L p /\ in_range L' p) ->
  target_recognition img tp cam imx imy sx sy = Ok ts -> target_recognition img' tp cam imx' imy' sx' sy' = Ok ts' ->
  exists Rs Rs', scanned img L (raster L) Rs /\ reported img L Rs ts /\ scanned img' L' (raster L') Rs' /\ reported img' L' Rs' ts' /\
    Forall2 (@Permutation pixel) (regions_in B Rs) (regions_in B Rs') /\
    forall R, In R (regions_in B Rs) -> (forall q, In q R -> B q = true) /\
      ((accepted img L R <-> accepted img' L' R) /\
      (accepted img L R -> exists t t' k k', In t ts /\ In t' ts' /\ describes img L R k t /\ describes img' L' R k' t' /\ same_target t t')).
Proof.
  intros W1 H1 W2 H2 W3 H3 W4 H4 G T L L' Bl Bl' A I I' Bin E E'.
  destruct (recognition_ok img tp cam imx imy sx sy thres W1 H1 W2 H2 G T Bl) as (Rs & ts1 & E1 & Sc & Rp). rewrite E in E1. injection E1 as <-.
  destruct (recognition_ok img' tp cam imx' imy' sx' sy' thres W3 H3 W4 H4 G T Bl') as (Rs' & ts1 & E1 & Sc' & Rp'). rewrite E' in E1. injection E1 as <-.
  fold L in Sc, Rp. fold L' in Sc', Rp'.
  assert (same_rules L L') as SR by apply clamped_rules.
  destruct (regions_local img img' L L' B Rs Rs' I I' A) as [F In1]; auto; try (intros; apply Bin; auto; fail).
  exists Rs, Rs'. split; [auto|]. split; [auto|]. split; [auto|]. split; [auto|]. split; [auto|].
  intros R J. split; [apply In1; auto|].
  assert (forall q, In q R -> grey img' q = grey img q) as GR by (intros q Q; apply A, (In1 R J q Q)).
  split.
  { split; intros X.
    - apply (accepted_same img img' L L' SR R R); auto.
    - apply (accepted_same img' img L' L (same_rules_sym _ _ SR) R R); auto. intros q Q. symmetry. auto. }
  intros Ac. destruct (reported_iff _ _ _ _ Rp) as [_ X]. destruct (reported_iff _ _ _ _ Rp') as [_ X'].
  assert (In R Rs) as JR by (apply filter_In in J; tauto).
  assert (exists R', In R' (regions_in B Rs') /\ Permutation R R') as (R' & J' & P).
  { clear -F J. induction F as [|a b l l' P F IH]; [destruct J|]. destruct J as [<-|J]; [exists b; split; [left|]; auto|].
    destruct (IH J) as (R' & ? & ?). exists R'. split; [right|]; auto. }
  destruct (X R JR Ac) as (t & k & It & D).
  assert (accepted img' L' R') as Ac' by (apply (accepted_same img img' L L' SR R R'); auto).
  destruct (X' R') as (t' & k' & It' & D'); [apply filter_In in J'; tauto|auto|].
  exists t, t', k, k'. split; [auto|]. split; [auto|]. split; [auto|]. split; [|apply (describes_same img img' L L' SR R R' k k'); auto].
  (* R' and R describe the same *)
  destruct D' as (D1 & D2 & D3 & (lx & hx & D4 & D5) & (ly & hy & D6 & D7) & D8 & D9 & D10). pose proof (Permutation_sym P) as P'.
  pose proof (zsum_perm _ _ (Permutation_map (excess img' L') P)) as Z0.
  pose proof (zsum_perm _ _ (Permutation_map (fun p => fst p * excess img' L' p) P)) as Zx.
  pose proof (zsum_perm _ _ (Permutation_map (fun p => snd p * excess img' L' p) P)) as Zy.
  split; [auto|]. split; [auto|]. split; [rewrite D3; f_equal; symmetry; apply Permutation_length; auto|].
  split; [exists lx, hx; split; auto; eapply span_perm; [apply Permutation_map|]; eauto|].
  split; [exists ly, hy; split; auto; eapply span_perm; [apply Permutation_map|]; eauto|].
  split; [rewrite D8; auto|]. split; [rewrite D9; do 3 f_equal; symmetry; exact Zx|rewrite D10; do 3 f_equal; symmetry; exact Zy].
Qed.

Lemma blobs_mono m L L' n : (forall p, in_range L' p -> in_range L p) -> l_thres L' = l_thres L -> l_disco L' = l_disco L ->
  blobs_below m L n -> blobs_below m L' n.
Proof.
  intros H T D B s R N HR. apply (B s R N). intros q J. specialize (HR q J). clear J. induction HR as [|p q HR IH (A1 & A2 & A3 & A4 & A5) F]; [constructor|].
  apply (reach_grow _ _ _ _ p q); auto. rewrite T in A3. rewrite D in A4, A5. unfold admits. auto 10.
Qed.
Lemma recognition_crop img tp cam imx imy sx sy thres :
  imx <= im_w img -> imy <= im_h img -> snd (requested imx sx) <= im_w img -> snd (requested imy sy) <= im_h img ->
  pyget (tpar_gvthresh tp) cam = Ok thres -> 0 <= thres ->
  blobs_below img (scan_range tp thres imx imy None None) MAX_TARGETS ->
  (forall p, 1 <= fst p < imx - 1 -> 1 <= snd p < imy - 1 -> thres < grey img p ->
     fst (requested imx sx) <= fst p < snd (requested imx sx) /\ fst (requested imy sy) <= snd p < snd (requested imy sy)) ->
  target_recognition img tp cam imx imy sx sy = target_recognition img tp cam imx imy None None.
Proof.
  intros W1 H1 W2 H2 G T Bl Cov.
  set (L := scan_range tp thres imx imy sx sy). set (L0 := scan_range tp thres imx imy None None).
  assert (forall p, in_range L p -> in_range L0 p) as Sub.
  { intros p. unfold in_range, L, L0, scan_range, clamped. cbn [l_xmin l_xmax l_ymin l_ymax requested fst snd]. lia. }
  assert (blobs_below img L MAX_TARGETS) as Bl' by (apply (blobs_mono img L0); auto).
  destruct (recognition_ok img tp cam imx imy None None thres W1 H1 W1 H1 G T Bl) as (Rs & ts & E & Sc & Rp).
  destruct (recognition_ok img tp cam imx imy sx sy thres W1 H1 W2 H2 G T Bl') as (Rs' & ts' & E' & Sc' & Rp').
  fold L in Sc', Rp'. fold L0 in Sc, Rp. rewrite E, E'. f_equal. symmetry.
  pose (B := fun p : pixel => (l_xmin L <=? fst p) && (fst p <? l_xmax L) && (l_ymin L <=? snd p) && (snd p <? l_ymax L) && (thres <? grey img p)).
  assert (forall p, B p = true <-> in_range L p /\ thres < grey img p) as HB.
  { intros p. unfold B, in_range. rewrite !andb_true_iff, !Z.leb_le, !Z.ltb_lt. tauto. }
  assert (forall p, in_range L0 p -> thres < grey img p -> in_range L p) as Cov'.
  { intros p R Gp. specialize (Cov p). unfold in_range, L, L0, scan_range, clamped in *. cbn [l_xmin l_xmax l_ymin l_ymax requested fst snd] in *. lia. }
  assert (same_rules L0 L) as SR by apply clamped_rules.
  assert (l_thres L = thres) as TL by reflexivity. assert (l_thres L0 = thres) as TL0 by reflexivity. clearbody L L0.
  assert (forall M, l_thres M = thres -> (forall p, in_range M p -> in_range L0 p) -> isolated img M B) as Iso.
  { intros M TM HM p q Bp _ Rq Bq. rewrite TM. destruct (Z.le_gt_cases (grey img q) thres) as [|Gq]; auto.
    exfalso. enough (B q = true) by congruence. apply HB. split; [|lia]. apply Cov'; [auto|lia]. }
  assert (agree_at img img B) as Ag by (intros p _; auto).
  destruct (regions_local img img L0 L B Rs Rs') as [F _]; auto; try (intros p Bp; apply HB in Bp; destruct Bp; auto; fail); try apply SR.
  assert (forall M Q ps, scanned img M ps Q -> l_thres M = thres -> (forall p, in_range M p -> in_range L0 p) -> regions_in B Q = Q) as All.
  { intros M Q ps S TM HM. apply regions_all. induction S as [|ps p Q R S IH P N HR|ps p Q S IH P]; intros R' J; [destruct J| |auto].
    apply in_app_iff in J as [J|[<-|[]]]; auto. destruct P as (Rp0 & _ & Gp & _). rewrite TM in Gp. exists p. split; [apply HR; constructor|].
    apply HB. split; auto. }
  rewrite (All L0 Rs (raster L0)), (All L Rs' (raster L)) in F by auto.
  eapply (reported_same img img L0 L SR); eauto.
Qed.

(** ---- check_touch ---- *)
Lemma nth_firstn {A} : forall n k (l : list A), (k < n)%nat -> nth_error (firstn n l) k = nth_error l k.
Proof. induction n; intros k [|x l] H; [lia|lia|destruct k; reflexivity|]. destruct k; cbn; auto. apply IHn. lia. Qed.
Lemma touch_search touch p2 : forall n, 0 <= n <= Z.of_nat (length touch) ->
  exists b, foldM (fun done m => do v <- pyget touch m; Ok (if v =? p2 then true else done)) (zrange 0 n) false = Ok b /\
    (b = true <-> In p2 (firstn (Z.to_nat n) touch)).
Proof.
  intros n Hn.
  destruct (foldM_total (fun l b => b = true <-> exists m, In m l /\ nth_error touch (Z.to_nat m) = Some p2)
    (fun done m => do v <- pyget touch m; Ok (if v =? p2 then true else done)) (zrange 0 n) false) as (b & E & H).
  - split; [discriminate|intros (? & [] & _)].
  - intros pre m post b Epre Hb.
    assert (0 <= m < n) as Im by (apply In_zrange; rewrite Epre; apply in_app_iff; right; left; auto).
    destruct (pyget_in_range touch m) as (v & -> & Nv); [lia|]. cbn. eexists. split; [reflexivity|].
    destruct (Z.eqb_spec v p2) as [->|Nv'].
    + split; auto. intros _. exists m. split; auto. apply in_app_iff. right. left. auto.
    + rewrite Hb. split; intros (k & I & N); exists k; (split; [|auto]); [apply in_app_iff; auto|].
      apply in_app_iff in I as [I|[<-|[]]]; auto. congruence.
  - exists b. split; auto. rewrite H. split.
    + intros (m & I & N). apply In_zrange in I. apply nth_error_In with (Z.to_nat m). rewrite nth_firstn by lia. auto.
    + intros J. apply In_nth_error in J as (k & N).
      assert (k < length (firstn (Z.to_nat n) touch))%nat as Hk by (apply nth_error_Some; congruence). rewrite firstn_length in Hk.
      exists (Z.of_nat k). split; [apply In_zrange; lia|]. rewrite Nat2Z.id, <- (nth_firstn (Z.to_nat n)) by lia. auto.
Qed.
Lemma firstn_upd {A} (l : list A) v : forall n, (n < length l)%nat -> firstn (Datatypes.S n) (upd l n v) = firstn n l ++ [v] /\ firstn n (upd l n v) = firstn n l.
Proof.
  induction l as [|x l IH]; intros n H; [cbn in H; lia|]. destruct n; [split; reflexivity|]. cbn in H. destruct (IH n ltac:(lia)) as [E F].
  split; [|cbn; f_equal; exact F]. change (x :: firstn (Datatypes.S n) (upd l n v) = x :: (firstn n l ++ [v])). f_equal. exact E.
Qed.
Lemma touch_ok touch n p1 p2 : (4 <= length touch)%nat -> 0 <= n <= 3 ->
  exists touch' n', check_touch touch n p1 p2 = Ok (touch', n') /\ length touch' = length touch /\ 0 <= n' <= 3 /\
    let old := firstn (Z.to_nat n) touch in
    ((p2 = 0 \/ p2 = p1 \/ In p2 old \/ n = 3) -> firstn (Z.to_nat n') touch' = old) /\
    (p2 <> 0 -> p2 <> p1 -> ~ In p2 old -> n < 3 -> firstn (Z.to_nat n') touch' = old ++ [p2]).
Proof.
  intros Hl Hn. unfold check_touch. cbv zeta.
  destruct (Z.eqb_spec p2 0) as [->|N0]. { exists touch, n. repeat split; auto; try lia. }
  destruct (Z.eqb_spec p2 p1) as [->|N1]. { exists touch, n. repeat split; auto; try lia. }
  destruct (touch_search touch p2 n ltac:(lia)) as (b & -> & Hb). cbn [bind]. destruct b.
  { exists touch, n. repeat split; auto; try lia. intros _ _ X. exfalso. apply X, Hb. auto. }
  rewrite pyset_in_range by lia. cbn [bind].
  destruct (firstn_upd touch p2 (Z.to_nat n)) as [F1 F0]; [lia|].
  assert (~ In p2 (firstn (Z.to_nat n) touch)) as NI by (intros J; apply Hb in J; discriminate).
  destruct (Z.gtb_spec (n + 1) 3) as [G|G].
  - exists (upd touch (Z.to_nat n) p2), 3. split; [auto|]. split; [apply upd_length|]. split; [lia|]. assert (n = 3) as -> by lia.
    split; [intros _; exact F0|lia].
  - exists (upd touch (Z.to_nat n) p2), (n + 1). split; [auto|]. split; [apply upd_length|]. split; [lia|].
    split; [intros [X|[X|[X|X]]]; (contradiction || lia)|]. intros _ _ _ _.
    replace (Z.to_nat (n + 1)) with (Datatypes.S (Z.to_nat n)) by lia. exact F1.
Qed.
Lemma touch_fresh p1 p2 : p2 <> 0 -> p2 <> p1 -> check_touch [] 0 p1 p2 = Exn IndexError.
Proof.
  intros N0 N1. unfold check_touch. destruct (Z.eqb_spec p2 0); [contradiction|]. destruct (Z.eqb_spec p2 p1); [contradiction|]. reflexivity.
Qed.
