(** Property C22, continued: when a particle can be added at all. *)
From Verif Require Import F64 Model_corr Model_track Spec_track Proof_track_ex Lib Base.
Local Open Scope Z_scope.

(** the cameras from a on name targets that there are (counted from the end if negative), or none *)
Definition named (nc a : Z) (inds : list Z) (targ : list (list target)) : Prop := forall c, a <= Z.of_nat c < nc ->
  exists ix, nth_error inds c = Some ix /\ (ix = PT_UNUSED \/ exists tl, nth_error targ c = Some tl /\ - Z.of_nat (length tl) <= ix < Z.of_nat (length tl)).

Lemma pyget_iff {A} (l : list A) i : (exists a, pyget l i = Ok a) <-> - Z.of_nat (length l) <= i < Z.of_nat (length l).
Proof.
  unfold pyget, pyidx. destruct (Z.leb_spec 0 i), (Z.ltb_spec i (Z.of_nat (length l))), (Z.leb_spec (- Z.of_nat (length l)) i), (Z.ltb_spec i 0); cbn [andb]; try lia;
  try (split; [intros (a & H'); discriminate H'|lia]).
  - destruct (nth_error l (Z.to_nat i)) eqn:E; [split; [lia|eauto]|]. apply nth_error_None in E. lia.
  - destruct (nth_error l (Z.to_nat (i + Z.of_nat (length l)))) eqn:E; [split; [lia|eauto]|]. apply nth_error_None in E. lia.
Qed.
Lemma pyset_iff {A} (l : list A) i v : - Z.of_nat (length l) <= i < Z.of_nat (length l) -> exists k, (k < length l)%nat /\ pyset l i v = Ok (upd l k v) /\ (0 <= i -> k = Z.to_nat i).
Proof.
  intros H. unfold pyset, pyidx. destruct (Z.leb_spec 0 i), (Z.ltb_spec i (Z.of_nat (length l))), (Z.leb_spec (- Z.of_nat (length l)) i), (Z.ltb_spec i 0); cbn [andb]; try lia;
  eexists; (split; [|split; [reflexivity|]]); lia.
Qed.
Lemma resize_length l : length (np_resize1 l) = S (length l).
Proof. destruct l; cbn [np_resize1]; [reflexivity|]. rewrite app_length. cbn. lia. Qed.

Section Add.
Variable num : Z.
Variable inds : list Z.
Local Notation body := (fun '(cor, targ) cam =>
      do row <- pyget cor cam;
      do cor <- pyset cor cam (mk_corres (co_nr row) (repeat CORRES_NONE 4));
      do ix <- pyget inds cam;
      if ix =? PT_UNUSED then Ok (cor, targ) else
      do tl <- pyget targ cam; do t <- pyget tl ix; do tl' <- pyset tl ix (set_tnr t num);
      do targ <- pyset targ cam tl';
      do cor <- pyset cor cam (mk_corres (co_nr row) (repeat ix 4));
      Ok (map (fun c => mk_corres num (co_p c)) cor, targ)).
Lemma add_loop nc n : forall a (cor : list corres) (targ : list (list target)), 0 <= a -> nc = a + Z.of_nat n ->
  (exists r, foldM body (zrange a nc) (cor, targ) = Ok r) <-> (n <> O -> nc <= Z.of_nat (length cor)) /\ named nc a inds targ.
Proof.
  induction n as [|n IH]; intros a cor targ Ha Hn.
  { rewrite zrange_empty by lia. cbn [foldM]. split; [|eauto]. intros _. split; [lia|]. intros c Hc. lia. }
  rewrite zrange_cons by lia. cbn [foldM].
  destruct (Z_lt_ge_dec a (Z.of_nat (length cor))) as [C|C].
  2:{ destruct (pyget cor a) eqn:E; [|cbn [bind]; split; [intros (r & X); discriminate X|intros (X & _); specialize (X ltac:(lia)); lia]].
      exfalso. assert (X : exists r, pyget cor a = Ok r) by eauto. apply pyget_iff in X. lia. }
  destruct (proj2 (pyget_iff cor a) ltac:(lia)) as (row & ->). cbn [bind].
  destruct (pyset_iff cor a (mk_corres (co_nr row) (repeat CORRES_NONE 4)) ltac:(lia)) as (k & Hk & -> & _). cbn [bind].
  assert (NS : named nc a inds targ <-> (exists ix, nth_error inds (Z.to_nat a) = Some ix /\ (ix = PT_UNUSED \/ exists tl, nth_error targ (Z.to_nat a) = Some tl /\ - Z.of_nat (length tl) <= ix < Z.of_nat (length tl))) /\ named nc (a + 1) inds targ).
  { split; [intros H; split; [apply H; lia|intros c Hc; apply H; lia]|]. intros (H1 & H2) c Hc. destruct (Z.eq_dec (Z.of_nat c) a) as [<-|D]; [now rewrite Nat2Z.id in H1|apply H2; lia]. }
  destruct (pyget inds a) as [ix|] eqn:EI.
  2:{ cbn [bind]. split; [intros (r & X); discriminate X|]. intros (_ & H). apply NS in H as ((ix & H & _) & _). apply (pyget_ok_iff _ _ _ Ha) in H. congruence. }
  cbn [bind]. apply (pyget_ok_iff _ _ _ Ha) in EI.
  destruct (Z.eqb_spec ix PT_UNUSED) as [U|U]; cbn [bind].
  { rewrite (IH (a + 1) _ targ ltac:(lia) ltac:(lia)), upd_length, NS. split.
    - intros (H1 & H2). split; [intros _; destruct n; lia|]. split; [|exact H2]. exists ix. auto.
    - intros (H1 & _ & H2). split; [|exact H2]. intros _. apply H1. lia. }
  destruct (pyget targ a) as [tl|] eqn:ET.
  2:{ cbn [bind]. split; [intros (r & X); discriminate X|]. intros (_ & H). apply NS in H as ((ix' & H & [H'|(tl & H' & _)]) & _); [congruence|]. apply (pyget_ok_iff _ _ _ Ha) in H'. congruence. }
  cbn [bind]. apply (pyget_ok_iff _ _ _ Ha) in ET.
  destruct (pyget tl ix) as [t|] eqn:EX.
  2:{ cbn [bind]. split; [intros (r & X); discriminate X|]. intros (_ & H). apply NS in H as ((ix' & H & [H'|(tl' & H' & H'')]) & _); [congruence|]. exfalso.
      assert (tl' = tl) by congruence. assert (ix' = ix) by congruence. subst. apply pyget_iff in H'' as (t & H''). congruence. }
  cbn [bind]. assert (RX : - Z.of_nat (length tl) <= ix < Z.of_nat (length tl)) by (apply pyget_iff; eauto).
  destruct (pyset_iff tl ix (set_tnr t num) RX) as (k1 & Hk1 & -> & _). cbn [bind].
  assert (LT : (Z.to_nat a < length targ)%nat) by (apply nth_error_Some; congruence).
  destruct (pyset_iff targ a (upd tl k1 (set_tnr t num)) ltac:(lia)) as (k2 & Hk2 & -> & K2). cbn [bind]. specialize (K2 Ha). subst k2.
  match goal with |- context [pyset ?l a ?v] => destruct (pyset_iff l a v ltac:(rewrite upd_length; lia)) as (k3 & Hk3 & -> & _) end. cbn [bind].
  rewrite (IH (a + 1) _ _ ltac:(lia) ltac:(lia)), map_length, !upd_length, NS.
  assert (NU : named nc (a + 1) inds (upd targ (Z.to_nat a) (upd tl k1 (set_tnr t num))) <-> named nc (a + 1) inds targ).
  { unfold named. split; intros H c Hc; specialize (H c Hc); rewrite nth_error_upd_neq in * by lia; exact H. }
  rewrite NU. split.
  - intros (H1 & H2). split; [intros _; destruct n; lia|]. split; [|exact H2]. exists ix. split; [exact EI|]. right. exists tl. auto.
  - intros (H1 & _ & H2). split; [|exact H2]. intros _. apply H1. lia.
Qed.
End Add.

(** A particle can be added exactly when the frame's count of particles is not beyond its list, every camera's chosen target
    exists (or the camera has none), and there are at least as many particles as cameras, less one. *)
Theorem C22_possible : forall nc frm pos inds, 0 <= nc ->
  (exists frm', add_particle nc frm pos inds = Ok frm') <->
  fr_num frm <= Z.of_nat (length (fr_path frm)) /\ (nc = 0 \/ nc <= Z.of_nat (length (fr_corr frm)) + 1) /\
  forall c, Z.of_nat c < nc -> exists ix, nth_error inds c = Some ix /\
    (ix = PT_UNUSED \/ exists tl, nth_error (fr_targ frm) c = Some tl /\ - Z.of_nat (length tl) <= ix < Z.of_nat (length tl)).
Proof.
  intros nc frm pos inds Hn. unfold add_particle.
  destruct (Z.gtb_spec (fr_num frm) (Z.of_nat (length (fr_path frm)))) as [G|G].
  { split; [intros (f & X); discriminate X|lia]. }
  pose proof (add_loop (fr_num frm) inds nc (Z.to_nat nc) 0 (np_resize1 (fr_corr frm)) (fr_targ frm) ltac:(lia) ltac:(lia)) as L. rewrite resize_length in L.
  match goal with |- context [foldM ?f ?l ?s] => set (M := foldM f l s) in * end.
  transitivity (exists r, M = Ok r). { destruct M as [r|]; cbn [bind]; [split; eauto|split; intros (f & X); discriminate X]. }
  rewrite L. unfold named. split; intros H.
  - destruct H as (H1 & H2). split; [lia|]. split; [destruct (Z.eq_dec nc 0); [auto|right; lia]|]. intros c Hc. apply H2. lia.
  - destruct H as (_ & H1 & H2). split; [lia|]. intros c Hc. apply H2. lia.
Qed.
Print Assumptions C22_possible.

Definition only_index {A} (r : result A) : Prop := forall e, r = Exn e -> e = IndexError.
Lemma oi_bind {A B} (r : result A) (k : A -> result B) : only_index r -> (forall a, only_index (k a)) -> only_index (bind r k).
Proof. intros H1 H2 e. destruct r as [a|x]; cbn [bind]; [apply H2|]. intros E. injection E as ->. now apply H1. Qed.
Lemma oi_get {A} (l : list A) i : only_index (pyget l i). Proof. intros e. apply pyget_exn_only. Qed.
Lemma oi_set {A} (l : list A) i v : only_index (pyset l i v). Proof. intros e E. unfold pyset in E. destruct (pyidx _ _); congruence. Qed.
Lemma oi_fold {S A} (f : S -> A -> result S) l : (forall s a, only_index (f s a)) -> forall s, only_index (foldM f l s).
Proof. intros H. induction l as [|a l IH]; intros s; cbn [foldM]; [intros e E; discriminate|]. apply oi_bind; auto. Qed.
Lemma oi_ok {A} (a : A) : only_index (Ok a). Proof. intros e E. discriminate. Qed.
Theorem C22_raises : forall nc frm pos inds e, add_particle nc frm pos inds = Exn e -> e = IndexError.
Proof.
  intros nc frm pos inds. unfold add_particle. destruct (_ >? _); [congruence|]. apply oi_bind; [|intros; apply oi_ok]. apply oi_fold. intros (cor, targ) cam.
  apply oi_bind; [apply oi_get|intros row]. apply oi_bind; [apply oi_set|intros c1]. apply oi_bind; [apply oi_get|intros ix]. destruct (ix =? PT_UNUSED); [apply oi_ok|].
  apply oi_bind; [apply oi_get|intros tl]. apply oi_bind; [apply oi_get|intros t]. apply oi_bind; [apply oi_set|intros tl']. apply oi_bind; [apply oi_set|intros tg].
  apply oi_bind; [apply oi_set|intros]. apply oi_ok.
Qed.
Print Assumptions C22_raises.

(** Refuted: that a particle with a good target in every camera can be added to any frame. With fewer particles than cameras, less
    one, it never can: the code indexes the rows of the frame's correspondences by the number of the camera. *)
Theorem C22_few_particles_refuted : forall nc frm pos inds, 0 < nc -> Z.of_nat (length (fr_corr frm)) + 1 < nc ->
  add_particle nc frm pos inds = Exn IndexError.
Proof.
  intros nc frm pos inds Hn H. destruct (add_particle nc frm pos inds) as [f|e] eqn:E; [|f_equal; eapply C22_raises; eauto].
  assert (X : exists f, add_particle nc frm pos inds = Ok f) by eauto. apply C22_possible in X; lia.
Qed.
Print Assumptions C22_few_particles_refuted.

(** a particle seen by two cameras is added to a frame of one particle, and not to one that is empty, nor with three cameras *)
Definition lone : frame := frm [pt80 86 52 0] [row 0 0] (repeat [tg 86 52 0; tg 64 53 (-1)] 3).
Definition bare : frame := frm [] [] (repeat [tg 64 53 (-1)] 2).
Example C22_possible_case :
  (exists f, add_particle 2 lone (fz 64, fz 53, fz 0) [1; 1] = Ok f) /\
  add_particle 2 bare (fz 64, fz 53, fz 0) [0; 0] = Exn IndexError /\
  add_particle 3 lone (fz 64, fz 53, fz 0) [1; 1; PT_UNUSED] = Exn IndexError.
Proof.
  split; [|split].
  - apply C22_possible; [lia|]. split; [apply Z.leb_le; reflexivity|]. split; [right; apply Z.leb_le; reflexivity|].
    intros [|[|c]] Hc; [| |lia]; exists 1; (split; [reflexivity|]); right; eexists; (split; [reflexivity|]); split; [apply Z.leb_le|apply Z.ltb_lt|apply Z.leb_le|apply Z.ltb_lt]; reflexivity.
  - apply C22_few_particles_refuted; [|apply Z.ltb_lt]; reflexivity.
  - apply C22_few_particles_refuted; [|apply Z.ltb_lt]; reflexivity.
Qed.
