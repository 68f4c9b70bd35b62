From Coq Require Import Permutation Sorted.
From Verif Require Import Base F64 Model_corr Spec_corr Proof_corr_take.
Local Open Scope Z_scope.

Fixpoint emitl (size : Z) (mks : list (ntupel -> result ntupel)) (s : scr) : ctl scr :=
  match mks with
  | [] => Next s
  | mk :: t => bindC (emit size mk s) (emitl size t)
  end.

Lemma bindC_assoc {S} (m : ctl S) f g : bindC (bindC m f) g = bindC m (fun s => bindC (f s) g).
Proof. destruct m; reflexivity. Qed.

Lemma bindC_ext {S} (m : ctl S) f g : (forall s, f s = g s) -> bindC m f = bindC m g.
Proof. intros H; destruct m; simpl; auto. Qed.

Lemma emitl_app size a b s : emitl size (a ++ b) s = bindC (emitl size a s) (emitl size b).
Proof.
  revert s; induction a as [|m a IH]; intros s; simpl; [reflexivity|].
  rewrite bindC_assoc. apply bindC_ext. auto.
Qed.

Lemma forC_emit {A} size (l : list A) f (g : A -> list (ntupel -> result ntupel)) s :
  (forall a s, In a l -> f a s = emitl size (g a) s) ->
  forC l f s = emitl size (flat_map g l) s.
Proof.
  revert s; induction l as [|a l IH]; intros s H; simpl; [reflexivity|].
  rewrite emitl_app, H by (simpl; auto). apply bindC_ext. intros; apply IH.
  intros; apply H; simpl; auto.
Qed.

(** total accessors *)
Definition nz (l : list Z) (k : Z) : Z := nth (Z.to_nat k) l 0.
Definition nf (l : list f64) (k : Z) : f64 := nth (Z.to_nat k) l fzero.
Definition ce (cl : adj) (a b i : Z) : correspond :=
  match getc cl a b i with Ok c => c | Exn _ => empty_correspond end.

Lemma getc_entry cl a b i c : 0 <= a -> 0 <= b -> 0 <= i ->
  (getc cl a b i = Ok c <-> entry cl a b i c).
Proof.
  intros Ha Hb Hi. unfold getc, entry. split.
  - intros H. apply bind_ok in H as (l1 & H1 & H). apply bind_ok in H as (l2 & H2 & H3).
    apply pyget_ok_iff in H1, H2, H3; auto. repeat split; auto. eauto.
  - intros (_ & _ & _ & l1 & l2 & H1 & H2 & H3).
    apply pyget_ok_iff in H1; auto. apply pyget_ok_iff in H2; auto. apply pyget_ok_iff in H3; auto.
    rewrite H1; simpl. rewrite H2; simpl. exact H3.
Qed.

Lemma entry_det cl a b i c c' : entry cl a b i c -> entry cl a b i c' -> c = c'.
Proof.
  intros (_ & _ & _ & l1 & l2 & H1 & H2 & H3) (_ & _ & _ & l1' & l2' & H1' & H2' & H3').
  congruence.
Qed.

Lemma pyget_nz (l : list Z) k : 0 <= k < Z.of_nat (length l) -> pyget l k = Ok (nz l k).
Proof.
  intros H. destruct (pyget_in_range l k H) as (a & E & N). rewrite E. f_equal.
  unfold nz. symmetry. now apply nth_error_nth.
Qed.
Lemma pyget_nf (l : list f64) k : 0 <= k < Z.of_nat (length l) -> pyget l k = Ok (nf l k).
Proof.
  intros H. destruct (pyget_in_range l k H) as (a & E & N). rewrite E. f_equal.
  unfold nf. symmetry. now apply nth_error_nth.
Qed.
Lemma nth_error_nz (l : list Z) k : 0 <= k < Z.of_nat (length l) -> nth_error l (Z.to_nat k) = Some (nz l k).
Proof. intros H. unfold nz. apply nth_error_nth'. lia. Qed.
Lemma nth_error_nf (l : list f64) k : 0 <= k < Z.of_nat (length l) -> nth_error l (Z.to_nat k) = Some (nf l k).
Proof. intros H. unfold nf. apply nth_error_nth'. lia. Qed.

(** what well-formedness gives for an in-range target *)
Record good (nb i : Z) (cl : adj) (a b : Z) : Prop := {
  g_get : getc cl a b i = Ok (ce cl a b i);
  g_entry : entry cl a b i (ce cl a b i);
  g_wf : wf_entry nb i (ce cl a b i) }.

Lemma wf_good nc counts cl a b i na nb :
  wf_adj nc counts cl -> 0 <= a < b -> b < nc ->
  nth_error counts (Z.to_nat a) = Some na -> nth_error counts (Z.to_nat b) = Some nb ->
  0 <= i < na -> good nb i cl a b.
Proof.
  intros (_ & _ & H) Hab Hb Na Nb Hi.
  destruct (H a b i na nb Hab Hb Na Nb Hi) as (c & E & W).
  assert (G : getc cl a b i = Ok c) by (apply getc_entry; auto; lia).
  unfold ce. constructor; unfold ce; rewrite G; auto.
Qed.

Lemma wf_entry_p2 nb i c k : wf_entry nb i c -> 0 <= k < cn c ->
  pyget (cp2 c) k = Ok (nz (cp2 c) k) /\ 0 <= nz (cp2 c) k < nb /\
  nth_error (cp2 c) (Z.to_nat k) = Some (nz (cp2 c) k).
Proof.
  intros (W1 & W2 & W3 & W4 & W5 & W6 & _) Hk. unfold MAXCAND in *.
  assert (R : 0 <= k < Z.of_nat (length (cp2 c))) by lia.
  split; [now apply pyget_nz|]. pose proof (nth_error_nz _ _ R) as N.
  split; auto. specialize (W6 _ _ N).
  destruct (Z.ltb_spec (Z.of_nat (Z.to_nat k)) (cn c)); lia.
Qed.

Lemma wf_entry_corr nb i c k : wf_entry nb i c -> 0 <= k < MAXCAND ->
  pyget (ccorr c) k = Ok (nf (ccorr c) k) /\ pyget (cdist c) k = Ok (nf (cdist c) k) /\
  nth_error (ccorr c) (Z.to_nat k) = Some (nf (ccorr c) k) /\
  nth_error (cdist c) (Z.to_nat k) = Some (nf (cdist c) k).
Proof.
  intros (W1 & W2 & W3 & W4 & W5 & W6 & _) Hk. unfold MAXCAND in *.
  split; [apply pyget_nf; lia|]. split; [apply pyget_nf; lia|].
  split; apply nth_error_nf; lia.
Qed.

Lemma wf_edge nb i cl a b k : good nb i cl a b -> 0 <= k < cn (ce cl a b i) ->
  edge cl a b i (nz (cp2 (ce cl a b i)) k) (nf (ccorr (ce cl a b i)) k) (nf (cdist (ce cl a b i)) k).
Proof.
  intros [G1 G2 G3] Hk. exists (ce cl a b i), (Z.to_nat k).
  destruct (wf_entry_p2 _ _ _ _ G3 Hk) as (_ & _ & E).
  assert (0 <= k < MAXCAND) by (destruct G3 as (_ & ? & _); lia).
  destruct (wf_entry_corr _ _ _ _ G3 H) as (_ & _ & E2 & E3).
  split; [auto|]. split; [lia|]. auto.
Qed.

Lemma edge_inv nb i cl a b j x d : good nb i cl a b -> edge cl a b i j x d ->
  exists k, 0 <= k < cn (ce cl a b i) /\ j = nz (cp2 (ce cl a b i)) k /\
    x = nf (ccorr (ce cl a b i)) k /\ d = nf (cdist (ce cl a b i)) k.
Proof.
  intros [G1 G2 G3] (c & k & E & Hk & N1 & N2 & N3).
  rewrite (entry_det _ _ _ _ _ _ G2 E). exists (Z.of_nat k).
  split; [lia|]. unfold nz, nf. rewrite Nat2Z.id.
  repeat split; symmetry; now apply nth_error_nth.
Qed.

(** ---------- four cameras ---------- *)
Definition mk4 (p1 p2 p3 p4 : Z) (corr : f64) : ntupel -> result ntupel := fun old =>
  do q0 <- pyset (tp old) 0 p1;
  do q1 <- pyset q0 1 p2;
  do q2 <- pyset q1 2 p3;
  do q3 <- pyset q2 3 p4;
  Ok {| tp := q3; tcorr := corr |}.

(** all quadruplets, in the order of the loops *)
Definition quads {B} (mk : Z -> Z -> Z -> Z -> f64 -> B) (cl : adj) (base : Z) (accept : f64) : list B :=
  flat_map (fun i => let c01 := ce cl 0 1 i in
  flat_map (fun j => let p2 := nz (cp2 c01) j in let c02 := ce cl 0 2 i in
  flat_map (fun k => let p3 := nz (cp2 c02) k in let c03 := ce cl 0 3 i in
  flat_map (fun ll => let p4 := nz (cp2 c03) ll in let c12 := ce cl 1 2 p2 in
  flat_map (fun m => if negb (p3 =? nz (cp2 c12) m) then [] else let c13 := ce cl 1 3 p2 in
  flat_map (fun n => if negb (p4 =? nz (cp2 c13) n) then [] else let c23 := ce cl 2 3 p3 in
  flat_map (fun o => if negb (p4 =? nz (cp2 c23) o) then [] else
    let corr := fdiv
      (fadd (fadd (fadd (fadd (fadd (nf (ccorr c01) j) (nf (ccorr c02) k)) (nf (ccorr c03) ll))
         (nf (ccorr c12) m)) (nf (ccorr c13) n)) (nf (ccorr c23) o))
      (fadd (fadd (fadd (fadd (fadd (nf (cdist c01) j) (nf (cdist c02) k)) (nf (cdist c03) ll))
         (nf (cdist c12) m)) (nf (cdist c13) n)) (nf (cdist c23) o)) in
    if fle corr accept then [] else [mk (cp1 c01) p2 p3 p4 corr])
    (zrange 0 (cn c23))) (zrange 0 (cn c13))) (zrange 0 (cn c12)))
    (zrange 0 (cn c03))) (zrange 0 (cn c02))) (zrange 0 (cn c01))) (zrange 0 base).

Lemma counts4 (counts : list Z) : length counts = Z.to_nat 4 ->
  exists n0 n1 n2 n3, counts = [n0; n1; n2; n3].
Proof.
  change (Z.to_nat 4) with 4%nat. intros H.
  destruct counts as [|a [|b [|c [|d [|]]]]]; try discriminate. eauto 10.
Qed.

Ltac inr H := apply In_zrange in H.

Lemma four_emit cl n0 n1 n2 n3 accept sc size :
  wf_adj 4 [n0; n1; n2; n3] cl ->
  four_camera_matching cl n0 accept sc size = runC (emitl size (quads mk4 cl n0 accept) (sc, 0)).
Proof.
  intros W. unfold four_camera_matching. f_equal. unfold quads.
  apply forC_emit. intros i s Hi. inr Hi.
  pose proof (wf_good 4 _ cl 0 1 i n0 n1 W ltac:(lia) ltac:(lia) eq_refl eq_refl Hi) as [G01 _ W01].
  pose proof (wf_good 4 _ cl 0 2 i n0 n2 W ltac:(lia) ltac:(lia) eq_refl eq_refl Hi) as [G02 _ W02].
  pose proof (wf_good 4 _ cl 0 3 i n0 n3 W ltac:(lia) ltac:(lia) eq_refl eq_refl Hi) as [G03 _ W03].
  rewrite G01. cbn [tryC]. cbv zeta.
  apply forC_emit. intros j s1 Hj. inr Hj.
  destruct (wf_entry_p2 _ _ _ _ W01 Hj) as (-> & R2 & _). cbn [tryC]. rewrite G02. cbn [tryC].
  apply forC_emit. intros k s2 Hk. inr Hk.
  destruct (wf_entry_p2 _ _ _ _ W02 Hk) as (-> & R3 & _). cbn [tryC]. rewrite G03. cbn [tryC].
  apply forC_emit. intros ll s3 Hl. inr Hl.
  destruct (wf_entry_p2 _ _ _ _ W03 Hl) as (-> & R4 & _). cbn [tryC].
  set (p2 := nz (cp2 (ce cl 0 1 i)) j) in *. set (p3 := nz (cp2 (ce cl 0 2 i)) k) in *.
  set (p4 := nz (cp2 (ce cl 0 3 i)) ll) in *.
  pose proof (wf_good 4 _ cl 1 2 p2 n1 n2 W ltac:(lia) ltac:(lia) eq_refl eq_refl R2) as [G12 _ W12].
  pose proof (wf_good 4 _ cl 1 3 p2 n1 n3 W ltac:(lia) ltac:(lia) eq_refl eq_refl R2) as [G13 _ W13].
  pose proof (wf_good 4 _ cl 2 3 p3 n2 n3 W ltac:(lia) ltac:(lia) eq_refl eq_refl R3) as [G23 _ W23].
  rewrite G12. cbn [tryC].
  apply forC_emit. intros m s4 Hm. inr Hm.
  destruct (wf_entry_p2 _ _ _ _ W12 Hm) as (-> & _ & _). cbn [tryC].
  destruct (negb (p3 =? nz (cp2 (ce cl 1 2 p2)) m)); [reflexivity|].
  rewrite G13. cbn [tryC].
  apply forC_emit. intros n s5 Hn. inr Hn.
  destruct (wf_entry_p2 _ _ _ _ W13 Hn) as (-> & _ & _). cbn [tryC].
  destruct (negb (p4 =? nz (cp2 (ce cl 1 3 p2)) n)); [reflexivity|].
  rewrite G23. cbn [tryC].
  apply forC_emit. intros o s6 Ho. inr Ho.
  destruct (wf_entry_p2 _ _ _ _ W23 Ho) as (-> & _ & _). cbn [tryC].
  destruct (negb (p4 =? nz (cp2 (ce cl 2 3 p3)) o)); [reflexivity|].
  assert (M : forall nb i c k, wf_entry nb i c -> 0 <= k < cn c -> 0 <= k < MAXCAND)
    by (intros nb' i' c' k' (_ & ? & _) ?; lia).
  destruct (wf_entry_corr _ _ _ _ W01 (M _ _ _ _ W01 Hj)) as (-> & -> & _).
  destruct (wf_entry_corr _ _ _ _ W02 (M _ _ _ _ W02 Hk)) as (-> & -> & _).
  destruct (wf_entry_corr _ _ _ _ W03 (M _ _ _ _ W03 Hl)) as (-> & -> & _).
  destruct (wf_entry_corr _ _ _ _ W12 (M _ _ _ _ W12 Hm)) as (-> & -> & _).
  destruct (wf_entry_corr _ _ _ _ W13 (M _ _ _ _ W13 Hn)) as (-> & -> & _).
  destruct (wf_entry_corr _ _ _ _ W23 (M _ _ _ _ W23 Ho)) as (-> & -> & _).
  cbn [tryC].
  match goal with |- context [fle ?a accept] => destruct (fle a accept) end; [reflexivity|].
  cbn [emitl]. unfold mk4.
  match goal with |- ?x = bindC ?y _ => change y with x; destruct x; reflexivity end.
Qed.

Lemma emitl_write size mks ts :
  Forall2 (fun mk t => forall old, length (tp old) = 4%nat -> mk old = Ok t) mks ts ->
  (forall t, In t ts -> length (tp t) = 4%nat) ->
  forall pre suf,
  (forall t, In t suf -> length (tp t) = 4%nat) ->
  Z.of_nat (length pre) < size <= Z.of_nat (length pre + length suf) ->
  runC (emitl size mks (pre ++ suf, Z.of_nat (length pre))) =
  let w := firstn (Z.to_nat size - length pre) ts in
  Ok (pre ++ overwrite suf w, Z.of_nat (length pre + length w)).
Proof.
  intros H; induction H as [|mk t mks ts Hmk HF IH]; intros Hts pre suf Hsuf Hsz.
  - cbn [emitl runC]. rewrite firstn_nil. unfold overwrite. cbn [app length skipn].
    now rewrite Nat.add_0_r.
  - destruct suf as [|old suf]; [simpl in Hsz; lia|].
    cbn [emitl]. unfold emit at 1.
    assert (E : pyget (pre ++ old :: suf) (Z.of_nat (length pre)) = Ok old).
    { apply pyget_nonneg; [lia|]. rewrite Nat2Z.id, nth_error_app2 by lia.
      now rewrite Nat.sub_diag. }
    rewrite E. cbn [tryC]. rewrite Hmk by (apply Hsuf; simpl; auto). cbn [tryC].
    rewrite pyset_in_range by (rewrite app_length; simpl; lia).
    rewrite Nat2Z.id. cbn [tryC]. rewrite upd_app_len.
    assert (E3 : (Z.to_nat size - length pre)%nat = S (Z.to_nat size - S (length pre))) by lia.
    rewrite E3. cbn [firstn].
    destruct (Z.eqb_spec (Z.of_nat (length pre) + 1) size) as [E1|E1].
    + cbn [bindC runC].
      replace (Z.to_nat size - S (length pre))%nat with O by lia. cbn [firstn length].
      unfold overwrite. cbn [length skipn app]. do 2 f_equal. lia.
    + cbn [bindC].
      replace (Z.of_nat (length pre) + 1) with (Z.of_nat (length (pre ++ [t]))) by (rewrite app_length; simpl; lia).
      replace (pre ++ t :: suf) with ((pre ++ [t]) ++ suf) by (now rewrite <- app_assoc).
      rewrite IH; [| |intros; apply Hsuf; simpl; auto|rewrite app_length; simpl in *; lia].
      2:{ intros; apply Hts; simpl; auto. }
      cbv zeta. rewrite app_length. cbn [length].
      replace (length pre + 1)%nat with (S (length pre)) by lia.
      unfold overwrite. cbn [length skipn]. rewrite <- app_assoc. cbn [app].
      do 2 f_equal. lia.
Qed.

Lemma emitl_run size mks ts sc :
  Forall2 (fun mk t => forall old, length (tp old) = 4%nat -> mk old = Ok t) mks ts ->
  (forall t, In t ts -> length (tp t) = 4%nat) -> scratch_ok sc ->
  0 < size <= Z.of_nat (length sc) ->
  runC (emitl size mks (sc, 0)) =
  let w := firstn (Z.to_nat size) ts in Ok (overwrite sc w, Z.of_nat (length w)).
Proof.
  intros HF Hts Hsc Hsz.
  pose proof (emitl_write size mks ts HF Hts [] sc Hsc ltac:(simpl; lia)) as E.
  cbn [app length Z.of_nat] in E. rewrite Nat.sub_0_r in E. exact E.
Qed.

Lemma Forall2_flat_map {A B C} (P : B -> C -> Prop) (l : list A) f g :
  (forall a, Forall2 P (f a) (g a)) -> Forall2 P (flat_map f l) (flat_map g l).
Proof. intros H; induction l as [|a l IH]; simpl; [constructor|]. apply Forall2_app; auto. Qed.

Definition t4 (p1 p2 p3 p4 : Z) (corr : f64) := {| tp := [p1; p2; p3; p4]; tcorr := corr |}.

Lemma mk4_t4 p1 p2 p3 p4 c old : length (tp old) = 4%nat -> mk4 p1 p2 p3 p4 c old = Ok (t4 p1 p2 p3 p4 c).
Proof.
  unfold mk4, t4. destruct old as [l x]; simpl.
  destruct l as [|a [|b [|d [|e [|]]]]]; simpl; intros H; try discriminate. reflexivity.
Qed.

Lemma quads_map cl base accept :
  Forall2 (fun mk t => forall old, length (tp old) = 4%nat -> mk old = Ok t)
    (quads mk4 cl base accept) (quads t4 cl base accept).
Proof.
  unfold quads.
  repeat first [ apply Forall2_flat_map; intros ? | constructor | progress cbv zeta
    | match goal with |- context [if ?b then _ else _] => destruct b end ].
  apply mk4_t4.
Qed.

Lemma in_flat_map_z {B} (f : Z -> list B) a b y :
  In y (flat_map f (zrange a b)) <-> exists x, a <= x < b /\ In y (f x).
Proof. rewrite in_flat_map. split; intros (x & H1 & H2); exists x; split; auto; now apply In_zrange. Qed.

Lemma quads_spec cl n0 n1 n2 n3 accept t :
  wf_adj 4 [n0; n1; n2; n3] cl ->
  (In t (quads t4 cl n0 accept) <-> is_quad cl n0 accept t).
Proof.
  intros W.
  assert (G : forall a b i na nb, 0 <= a < b -> b < 4 ->
    nth_error [n0; n1; n2; n3] (Z.to_nat a) = Some na -> nth_error [n0; n1; n2; n3] (Z.to_nat b) = Some nb ->
    0 <= i < na -> good nb i cl a b) by (intros; eapply wf_good; eauto).
  unfold quads. split.
  - intros H.
    apply in_flat_map_z in H as (i & Hi & H). cbv zeta in H.
    pose proof (G 0 1 i n0 n1 ltac:(lia) ltac:(lia) eq_refl eq_refl Hi) as G01.
    pose proof (G 0 2 i n0 n2 ltac:(lia) ltac:(lia) eq_refl eq_refl Hi) as G02.
    pose proof (G 0 3 i n0 n3 ltac:(lia) ltac:(lia) eq_refl eq_refl Hi) as G03.
    apply in_flat_map_z in H as (j & Hj & H).
    apply in_flat_map_z in H as (k & Hk & H).
    apply in_flat_map_z in H as (ll & Hl & H).
    destruct (wf_entry_p2 _ _ _ _ (g_wf _ _ _ _ _ G01) Hj) as (_ & R2 & _).
    destruct (wf_entry_p2 _ _ _ _ (g_wf _ _ _ _ _ G02) Hk) as (_ & R3 & _).
    pose proof (wf_edge _ _ _ _ _ _ G01 Hj) as E01.
    pose proof (wf_edge _ _ _ _ _ _ G02 Hk) as E02.
    pose proof (wf_edge _ _ _ _ _ _ G03 Hl) as E03.
    set (p2 := nz (cp2 (ce cl 0 1 i)) j) in *. set (p3 := nz (cp2 (ce cl 0 2 i)) k) in *.
    set (p4 := nz (cp2 (ce cl 0 3 i)) ll) in *.
    pose proof (G 1 2 p2 n1 n2 ltac:(lia) ltac:(lia) eq_refl eq_refl R2) as G12.
    pose proof (G 1 3 p2 n1 n3 ltac:(lia) ltac:(lia) eq_refl eq_refl R2) as G13.
    pose proof (G 2 3 p3 n2 n3 ltac:(lia) ltac:(lia) eq_refl eq_refl R3) as G23.
    apply in_flat_map_z in H as (m & Hm & H).
    destruct (Z.eqb_spec p3 (nz (cp2 (ce cl 1 2 p2)) m)) as [E3|E3]; [|contradiction]. cbn [negb] in H.
    apply in_flat_map_z in H as (n & Hn & H).
    destruct (Z.eqb_spec p4 (nz (cp2 (ce cl 1 3 p2)) n)) as [E4|E4]; [|contradiction]. cbn [negb] in H.
    apply in_flat_map_z in H as (o & Ho & H).
    destruct (Z.eqb_spec p4 (nz (cp2 (ce cl 2 3 p3)) o)) as [E5|E5]; [|contradiction]. cbn [negb] in H.
    pose proof (wf_edge _ _ _ _ _ _ G12 Hm) as E12. rewrite <- E3 in E12.
    pose proof (wf_edge _ _ _ _ _ _ G13 Hn) as E13. rewrite <- E4 in E13.
    pose proof (wf_edge _ _ _ _ _ _ G23 Ho) as E23. rewrite <- E5 in E23.
    match type of H with context [fle ?a accept] => destruct (fle a accept) eqn:EF end; [contradiction|].
    destruct H as [<-|[]].
    assert (C1 : cp1 (ce cl 0 1 i) = i) by (apply (g_wf _ _ _ _ _ G01)).
    rewrite C1.
    exists i, p2, p3, p4. do 12 eexists.
    split; [exact Hi|]. do 6 (split; [eassumption|]). split; [reflexivity|]. split; [reflexivity|]. exact EF.
  - intros (p1 & p2 & p3 & p4 & x12 & d12 & x13 & d13 & x14 & d14 & x23 & d23 & x24 & d24 & x34 & d34 &
            Hi & E01 & E02 & E03 & E12 & E13 & E23 & Ht & Hc & Hf).
    pose proof (G 0 1 p1 n0 n1 ltac:(lia) ltac:(lia) eq_refl eq_refl Hi) as G01.
    pose proof (G 0 2 p1 n0 n2 ltac:(lia) ltac:(lia) eq_refl eq_refl Hi) as G02.
    pose proof (G 0 3 p1 n0 n3 ltac:(lia) ltac:(lia) eq_refl eq_refl Hi) as G03.
    destruct (edge_inv _ _ _ _ _ _ _ _ G01 E01) as (j & Hj & -> & -> & ->).
    destruct (edge_inv _ _ _ _ _ _ _ _ G02 E02) as (k & Hk & -> & -> & ->).
    destruct (edge_inv _ _ _ _ _ _ _ _ G03 E03) as (ll & Hl & -> & -> & ->).
    destruct (wf_entry_p2 _ _ _ _ (g_wf _ _ _ _ _ G01) Hj) as (_ & R2 & _).
    destruct (wf_entry_p2 _ _ _ _ (g_wf _ _ _ _ _ G02) Hk) as (_ & R3 & _).
    set (p2 := nz (cp2 (ce cl 0 1 p1)) j) in *. set (p3 := nz (cp2 (ce cl 0 2 p1)) k) in *.
    set (p4 := nz (cp2 (ce cl 0 3 p1)) ll) in *.
    pose proof (G 1 2 p2 n1 n2 ltac:(lia) ltac:(lia) eq_refl eq_refl R2) as G12.
    pose proof (G 1 3 p2 n1 n3 ltac:(lia) ltac:(lia) eq_refl eq_refl R2) as G13.
    pose proof (G 2 3 p3 n2 n3 ltac:(lia) ltac:(lia) eq_refl eq_refl R3) as G23.
    destruct (edge_inv _ _ _ _ _ _ _ _ G12 E12) as (m & Hm & M & -> & ->).
    destruct (edge_inv _ _ _ _ _ _ _ _ G13 E13) as (n & Hn & N & -> & ->).
    destruct (edge_inv _ _ _ _ _ _ _ _ G23 E23) as (o & Ho & O & -> & ->).
    cbv zeta.
    apply in_flat_map_z. exists p1. split; [auto|].
    apply in_flat_map_z. exists j. split; [auto|]. fold p2.
    apply in_flat_map_z. exists k. split; [auto|]. fold p3.
    apply in_flat_map_z. exists ll. split; [auto|]. fold p4.
    apply in_flat_map_z. exists m. split; [auto|]. rewrite (proj2 (Z.eqb_eq _ _) M). cbn [negb].
    apply in_flat_map_z. exists n. split; [auto|]. rewrite (proj2 (Z.eqb_eq _ _) N). cbn [negb].
    apply in_flat_map_z. exists o. split; [auto|]. rewrite (proj2 (Z.eqb_eq _ _) O). cbn [negb].
    rewrite <- Hc, Hf. left. unfold t4.
    assert (C1 : cp1 (ce cl 0 1 p1) = p1) by (apply (g_wf _ _ _ _ _ G01)).
    rewrite C1. destruct t; simpl in *; congruence.
Qed.

(** no quadruplet is found twice *)
Lemma NoDup_flat_map {A B} (f : A -> list B) l :
  NoDup l -> (forall a, In a l -> NoDup (f a)) ->
  (forall a b t, In a l -> In b l -> In t (f a) -> In t (f b) -> a = b) -> NoDup (flat_map f l).
Proof.
  intros Hl. induction Hl as [|a l Hn Hl IH]; intros Hf Hd; simpl; [constructor|].
  assert (HA : forall (x y : list B), NoDup x -> NoDup y -> (forall t, In t x -> In t y -> False) -> NoDup (x ++ y)).
  { clear. induction x as [|a x IH]; intros y Hx Hy Hxy; simpl; auto.
    inversion Hx; subst. constructor.
    - rewrite in_app_iff. intros [?|?]; [auto|]. eapply Hxy; eauto; simpl; auto.
    - apply IH; auto. intros t ? ?; eapply Hxy; eauto; simpl; auto. }
  apply HA.
  - apply Hf; simpl; auto.
  - apply IH; [intros; apply Hf; simpl; auto|]. intros; eapply Hd; eauto; simpl; auto.
  - intros t H1 H2. apply in_flat_map in H2 as (b & Hb & H2).
    assert (a = b) by (eapply Hd; eauto; simpl; auto). subst. auto.
Qed.

Lemma NoDup_zrange a b : NoDup (zrange a b).
Proof.
  unfold zrange. apply FinFun.Injective_map_NoDup; [|apply seq_NoDup].
  intros x y; lia.
Qed.

Lemma nz_inj cl nb i a b k k' : distinct_cands cl -> good nb i cl a b ->
  0 <= k < cn (ce cl a b i) -> 0 <= k' < cn (ce cl a b i) ->
  nz (cp2 (ce cl a b i)) k = nz (cp2 (ce cl a b i)) k' -> k = k'.
Proof.
  intros HD [G1 G2 G3] Hk Hk' E.
  destruct (wf_entry_p2 _ _ _ _ G3 Hk) as (_ & _ & N1).
  destruct (wf_entry_p2 _ _ _ _ G3 Hk') as (_ & _ & N2).
  rewrite E in N1.
  assert (Z.to_nat k = Z.to_nat k') by (eapply (HD a b i _ _ _ _ G2); eauto; lia). lia.
Qed.

Ltac peel H := let x := fresh in apply in_flat_map_z in H as (x & _ & H);
     try match type of H with In _ (if ?b then _ else _) => destruct b; [contradiction|] end.
Ltac fin H := match type of H with In _ (if ?b then _ else _) => destruct b end;
     [contradiction|]; destruct H as [<-|[]].

Lemma quads_NoDup cl n0 n1 n2 n3 accept :
  wf_adj 4 [n0; n1; n2; n3] cl -> distinct_cands cl -> NoDup (quads t4 cl n0 accept).
Proof.
  intros W HD.
  assert (G : forall a b i na nb, 0 <= a < b -> b < 4 ->
    nth_error [n0; n1; n2; n3] (Z.to_nat a) = Some na -> nth_error [n0; n1; n2; n3] (Z.to_nat b) = Some nb ->
    0 <= i < na -> good nb i cl a b) by (intros; eapply wf_good; eauto).
  unfold quads. cbv zeta.
  apply NoDup_flat_map; [apply NoDup_zrange| |].
  2:{ intros i i' t Hi Hi' H H'. inr Hi. inr Hi'.
      pose proof (G 0 1 i n0 n1 ltac:(lia) ltac:(lia) eq_refl eq_refl Hi) as [_ _ (C & _)].
      pose proof (G 0 1 i' n0 n1 ltac:(lia) ltac:(lia) eq_refl eq_refl Hi') as [_ _ (C' & _)].
      rewrite C in H. rewrite C' in H'.
      do 6 peel H. do 6 peel H'. 
      match type of H with In _ (if ?b then _ else _) => destruct b; [contradiction|] end.
      match type of H' with In _ (if ?b then _ else _) => destruct b; [contradiction|] end.
      destruct H as [<-|[]]. destruct H' as [H'|[]]. unfold t4 in H'. congruence. }
  intros i Hi. inr Hi.
  pose proof (G 0 1 i n0 n1 ltac:(lia) ltac:(lia) eq_refl eq_refl Hi) as G01.
  pose proof (G 0 2 i n0 n2 ltac:(lia) ltac:(lia) eq_refl eq_refl Hi) as G02.
  pose proof (G 0 3 i n0 n3 ltac:(lia) ltac:(lia) eq_refl eq_refl Hi) as G03.
  apply NoDup_flat_map; [apply NoDup_zrange| |].
  2:{ intros j j' t Hj Hj' H H'. inr Hj. inr Hj'.
      do 5 peel H. do 5 peel H'. 
      match type of H with In _ (if ?b then _ else _) => destruct b; [contradiction|] end.
      match type of H' with In _ (if ?b then _ else _) => destruct b; [contradiction|] end.
      destruct H as [<-|[]]. destruct H' as [H'|[]]. unfold t4 in H'.
      inversion H' as [[Q1]]. eapply (nz_inj _ _ _ _ _ _ _ HD G01); [assumption|assumption|congruence]. }
  intros j Hj. inr Hj.
  destruct (wf_entry_p2 _ _ _ _ (g_wf _ _ _ _ _ G01) Hj) as (_ & R2 & _).
  apply NoDup_flat_map; [apply NoDup_zrange| |].
  2:{ intros k k' t Hk Hk' H H'. inr Hk. inr Hk'.
      do 4 peel H. do 4 peel H'. 
      match type of H with In _ (if ?b then _ else _) => destruct b; [contradiction|] end.
      match type of H' with In _ (if ?b then _ else _) => destruct b; [contradiction|] end.
      destruct H as [<-|[]]. destruct H' as [H'|[]]. unfold t4 in H'.
      inversion H' as [[Q1]]. eapply (nz_inj _ _ _ _ _ _ _ HD G02); [assumption|assumption|congruence]. }
  intros k Hk. inr Hk.
  destruct (wf_entry_p2 _ _ _ _ (g_wf _ _ _ _ _ G02) Hk) as (_ & R3 & _).
  apply NoDup_flat_map; [apply NoDup_zrange| |].
  2:{ intros l l' t Hl Hl' H H'. inr Hl. inr Hl'.
      do 3 peel H. do 3 peel H'. 
      match type of H with In _ (if ?b then _ else _) => destruct b; [contradiction|] end.
      match type of H' with In _ (if ?b then _ else _) => destruct b; [contradiction|] end.
      destruct H as [<-|[]]. destruct H' as [H'|[]]. unfold t4 in H'.
      inversion H' as [[Q1]]. eapply (nz_inj _ _ _ _ _ _ _ HD G03); [assumption|assumption|congruence]. }
  intros l Hl. inr Hl.
  set (p2 := nz (cp2 (ce cl 0 1 i)) j) in *. set (p3 := nz (cp2 (ce cl 0 2 i)) k) in *.
  set (p4 := nz (cp2 (ce cl 0 3 i)) l) in *.
  pose proof (G 1 2 p2 n1 n2 ltac:(lia) ltac:(lia) eq_refl eq_refl R2) as G12.
  pose proof (G 1 3 p2 n1 n3 ltac:(lia) ltac:(lia) eq_refl eq_refl R2) as G13.
  pose proof (G 2 3 p3 n2 n3 ltac:(lia) ltac:(lia) eq_refl eq_refl R3) as G23.
  apply NoDup_flat_map; [apply NoDup_zrange| |].
  2:{ intros m m' t Hm Hm' H H'. inr Hm. inr Hm'.
      destruct (Z.eqb_spec p3 (nz (cp2 (ce cl 1 2 p2)) m)) as [E|]; [|contradiction].
      destruct (Z.eqb_spec p3 (nz (cp2 (ce cl 1 2 p2)) m')) as [E'|]; [|contradiction].
      eapply (nz_inj _ _ _ _ _ _ _ HD G12); [assumption|assumption|congruence]. }
  intros m Hm. destruct (negb _); [constructor|].
  apply NoDup_flat_map; [apply NoDup_zrange| |].
  2:{ intros n n' t Hn Hn' H H'. inr Hn. inr Hn'.
      destruct (Z.eqb_spec p4 (nz (cp2 (ce cl 1 3 p2)) n)) as [E|]; [|contradiction].
      destruct (Z.eqb_spec p4 (nz (cp2 (ce cl 1 3 p2)) n')) as [E'|]; [|contradiction].
      eapply (nz_inj _ _ _ _ _ _ _ HD G13); [assumption|assumption|congruence]. }
  intros n Hn. destruct (negb _); [constructor|].
  apply NoDup_flat_map; [apply NoDup_zrange| |].
  2:{ intros o o' t Ho Ho' H H'. inr Ho. inr Ho'.
      destruct (Z.eqb_spec p4 (nz (cp2 (ce cl 2 3 p3)) o)) as [E|]; [|contradiction].
      destruct (Z.eqb_spec p4 (nz (cp2 (ce cl 2 3 p3)) o')) as [E'|]; [|contradiction].
      eapply (nz_inj _ _ _ _ _ _ _ HD G23); [assumption|assumption|congruence]. }
  intros o Ho. destruct (negb _); [constructor|]. destruct (fle _ _); repeat constructor. auto.
Qed.

Lemma four_exact cl counts n0 accept sc size :
  wf_adj 4 counts cl -> nth_error counts 0 = Some n0 -> scratch_ok sc -> 0 < size <= Z.of_nat (length sc) ->
  exists found,
    (forall t, In t found <-> is_quad cl n0 accept t) /\
    (distinct_cands cl -> NoDup found) /\
    four_camera_matching cl n0 accept sc size =
      Ok (overwrite sc (firstn (Z.to_nat size) found), Z.of_nat (length (firstn (Z.to_nat size) found))).
Proof.
  intros W Hn0 Hsc Hsz.
  destruct (counts4 counts (proj1 W)) as (m0 & n1 & n2 & n3 & ->).
  simpl in Hn0. inversion Hn0; subst m0.
  exists (quads t4 cl n0 accept). split; [|split].
  - intros t. now apply (quads_spec cl n0 n1 n2 n3).
  - intros. now apply (quads_NoDup cl n0 n1 n2 n3).
  - rewrite (four_emit cl n0 n1 n2 n3) by auto.
    rewrite (emitl_run size _ (quads t4 cl n0 accept)); auto.
    + apply quads_map.
    + intros t Ht. apply (quads_spec cl n0 n1 n2 n3) in Ht; auto.
      destruct Ht as (? & ? & ? & ? & ? & ? & ? & ? & ? & ? & ? & ? & ? & ? & ? & ? & _ & _ & _ & _ & _ & _ & _ & E & _).
      rewrite E. reflexivity.
Qed.
