(** Proofs for C75. *)
From Verif Require Import Base Lib F64 Model_par Model_cal Spec_cal.
Local Open Scope Z_scope.

Section P.
Variables fsin fcos : f64 -> f64.
Notation effect := (effect fsin fcos).
Notation perform := (perform fsin fcos).
Notation history := (history fsin fcos).

(** the base of a view is one of an object's two arrays *)
Definition of_obj (o : calobj) (b : nat) : Prop := b = v_base (k_glass o) \/ b = v_base (k_added o).
Definition good (o : calobj) : Prop := length (k_pos o) = 3%nat /\ length (k_int o) = 3%nat /\
  exists a b g, k_ang o = [a; b; g] /\ k_dm o = frotation fsin fcos a b g.
(** a view of one of an object's two arrays *)
Definition part_of (o : calobj) (v : view) : Prop := v = k_glass o \/ exists lo hi, v = slice (k_added o) lo hi.
Lemma part_base o v : part_of o v -> of_obj o (v_base v).
Proof. intros [->|(lo & hi & ->)]; [left|right]; reflexivity. Qed.
(** what a call can do *)
Inductive kind (w : world) (x : call) : world -> result (option view) -> Prop :=
| k_none e : kind w x w (Exn e)
| k_live o v : nth_error (w_objs w) (target_of w x) = Some o -> part_of o v -> kind w x w (Ok (Some v))
| k_fresh o l : nth_error (w_objs w) (target_of w x) = Some o -> kind w x (mk_world (w_heap w ++ [l]) (w_objs w) (w_log w)) (Ok (Some (whole (w_heap w) l)))
| k_store o v l : nth_error (w_objs w) (target_of w x) = Some o -> part_of o v -> length l = v_len v -> (forall k i y, x <> Poke k i y) ->
    kind w x (mk_world (store (w_heap w) v l) (w_objs w) (w_log w)) (Ok None)
| k_poke k i y c u : x = Poke k i y -> nth_error (w_log w) k = Some (c, Some u) -> (i < v_len u)%nat ->
    kind w x (mk_world (store (w_heap w) (mk_view (v_base u) (v_from u + i) 1) [y]) (w_objs w) (w_log w)) (Ok None)
| k_plain o o' : nth_error (w_objs w) (target_of w x) = Some o -> k_glass o' = k_glass o -> k_added o' = k_added o -> (good o -> good o') ->
    kind w x (mk_world (w_heap w) (upd (w_objs w) (target_of w x) o') (w_log w)) (Ok None)
| k_glassy o o' l : nth_error (w_objs w) (target_of w x) = Some o -> k_glass o' = whole (w_heap w) l -> k_added o' = k_added o -> (good o -> good o') ->
    kind w x (mk_world (w_heap w ++ [l]) (upd (w_objs w) (target_of w x) o') (w_log w)) (Ok None)
| k_addy o o' l : nth_error (w_objs w) (target_of w x) = Some o -> k_glass o' = k_glass o -> k_added o' = whole (w_heap w) l -> (good o -> good o') ->
    kind w x (mk_world (w_heap w ++ [l]) (upd (w_objs w) (target_of w x) o') (w_log w)) (Ok None)
| k_new g a o : x = New -> k_glass o = mk_view (length (w_heap w)) 0 (length g) -> k_added o = mk_view (Datatypes.S (length (w_heap w))) 0 (length a) -> good o ->
    kind w x (mk_world (w_heap w ++ [g; a]) (w_objs w ++ [o]) (w_log w)) (Ok None).

Lemma part_kind w x c o n lo hi a : target_of w x = c -> nth_error (w_objs w) c = Some o -> (forall k i y, x <> Poke k i y) ->
  kind w x (fst (set_part w c o n lo hi a)) (snd (set_part w c o n lo hi a)).
Proof.
  intros T O N. unfold set_part. destruct a as [l|]; [|constructor]. destruct (Nat.eqb _ n); [|constructor]. unfold assign.
  destruct (Nat.eqb_spec (v_len (slice (k_added o) lo hi)) (length l)); [|constructor].
  apply (k_store w x o (slice (k_added o) lo hi) l); [subst; auto|right; eauto|auto|auto].
Qed.
Lemma effect_kind w x : kind w x (fst (effect w x)) (snd (effect w x)).
Proof.
  assert (forall c f, target_of w x = c -> (forall o, nth_error (w_objs w) c = Some o -> kind w x (fst (f o)) (snd (f o))) ->
    kind w x (fst (with_obj w c f)) (snd (with_obj w c f))) as H.
  { intros c f T F. unfold with_obj. destruct (nth_error _ _) eqn:E; [auto|constructor]. }
  destruct x; cbn [Model_cal.effect].
  - apply k_new; try reflexivity. repeat split. do 3 eexists. split; reflexivity.
  - apply H; [reflexivity|]. intros o O. destruct a as [[|? [|? [|? [|? ?]]]]|]; try constructor. apply (k_plain w (SetPos c _) o); auto. intros (_ & G); split; [reflexivity|exact G].
  - apply H; [reflexivity|]. intros o O. destruct a as [[|? [|? [|? [|? ?]]]]|]; try constructor. apply (k_plain w (SetAngles c _) o); auto. intros (P & Q & _). split; [exact P|]. split; [exact Q|]. do 3 eexists. split; reflexivity.
  - apply H; [reflexivity|]. intros o O. repeat (match goal with |- context [match ?a with _ => _ end] => destruct a end; try constructor).
  - apply H; [reflexivity|]. intros o O. destruct a as [[|? [|? [|? [|? ?]]]]|]; try constructor. apply (k_plain w (SetPrimary c _) o); auto. intros (P & _ & Q). split; [exact P|]. split; [reflexivity|exact Q].
  - apply H; [reflexivity|]. intros o O. apply part_kind; auto. discriminate.
  - apply H; [reflexivity|]. intros o O. apply part_kind; auto. discriminate.
  - apply H; [reflexivity|]. intros o O. apply part_kind; auto. discriminate.
  - apply H; [reflexivity|]. intros o O. destruct a as [[|? [|? [|? [|? ?]]]]|]; try constructor. apply (k_glassy w (SetGlass c _) o); auto.
  - apply H; [reflexivity|]. intros o O. apply (k_addy w (SetAdded c _) o); auto.
  - apply H; [reflexivity|]. intros o O. apply (k_fresh w (GetPos c) o); auto.
  - apply H; [reflexivity|]. intros o O. apply (k_fresh w (GetAngles c) o); auto.
  - apply H; [reflexivity|]. intros o O. apply (k_fresh w (GetRotation c) o); auto.
  - apply H; [reflexivity|]. intros o O. apply (k_fresh w (GetPrimary c) o); auto.
  - apply H; [reflexivity|]. intros o O. apply (k_live w (GetRadial c) o); auto. right. eauto.
  - apply H; [reflexivity|]. intros o O. apply (k_live w (GetDecentering c) o); auto. right. eauto.
  - apply H; [reflexivity|]. intros o O. apply (k_live w (GetAffine c) o); auto. right. eauto.
  - apply H; [reflexivity|]. intros o O. apply (k_live w (GetGlass c) o); auto. left. reflexivity.
  - destruct (nth_error (w_log w) k) as [[c [u|]]|] eqn:E; try constructor. destruct (Nat.ltb_spec i (v_len u)); [|constructor].
    eapply k_poke; eauto.
Qed.

(** ---- the invariant: every array belongs to one object ---- *)
Record Inv (w : world) (own : nat -> nat) : Prop := mk_inv {
  i_obj : forall c o, nth_error (w_objs w) c = Some o ->
    (forall b, of_obj o b -> (b < length (w_heap w))%nat /\ own b = c) /\ v_base (k_glass o) <> v_base (k_added o);
  i_log : forall k c v, nth_error (w_log w) k = Some (c, Some v) ->
    (c < length (w_objs w))%nat /\ (v_base v < length (w_heap w))%nat /\ own (v_base v) = c }.
Lemma nth_upd_other {A} (l : list A) k j a : j <> k -> nth_error (upd l k a) j = nth_error l j.
Proof. revert k j. induction l as [|x l IH]; intros [|k] [|j] H; cbn; auto; try congruence. Qed.
Lemma nth_upd_eq {A} (l : list A) k a b : nth_error l k = Some b -> nth_error (upd l k a) k = Some a.
Proof. revert k. induction l as [|x l IH]; intros [|k] H; cbn in *; try discriminate; auto. Qed.
Lemma nth_snoc {A} (l : list A) x k a : nth_error (l ++ [x]) k = Some a -> nth_error l k = Some a \/ k = length l /\ a = x.
Proof.
  intros H. destruct (Nat.lt_ge_cases k (length l)) as [K|K]; [rewrite nth_error_app1 in H; auto|]. rewrite nth_error_app2 in H by auto.
  right. destruct (k - length l)%nat eqn:E; cbn in H; [split; [lia|congruence]|]. destruct n; discriminate.
Qed.
Lemma store_length h v l : length (store h v l) = length h.
Proof. apply upd_length. Qed.
Definition upd_own (own : nat -> nat) (n c : nat) : nat -> nat := fun b => if Nat.ltb b n then own b else c.
Lemma own_old own n c b : (b < n)%nat -> upd_own own n c b = own b.
Proof. intros H. unfold upd_own. destruct (Nat.ltb_spec b n); auto. lia. Qed.
Lemma own_new own n c b : (n <= b)%nat -> upd_own own n c b = c.
Proof. intros H. unfold upd_own. destruct (Nat.ltb_spec b n); auto. lia. Qed.
Lemma nth_some_lt {A} (l : list A) k a : nth_error l k = Some a -> (k < length l)%nat.
Proof. intros H. apply nth_error_Some. congruence. Qed.

Lemma perform_inv w own x : Inv w own -> exists own', Inv (fst (perform w x)) own' /\ forall b, (b < length (w_heap w))%nat -> own' b = own b.
Proof.
  intros I. pose proof (effect_kind w x) as K. unfold Model_cal.perform. destruct (effect w x) as [w' r]. cbn [fst snd] in *.
  pose (c := target_of w x). destruct I as [IO IL].
  exists (upd_own own (length (w_heap w)) c). split; [|intros; apply own_old; auto].
  assert (forall c0 o b, nth_error (w_objs w) c0 = Some o -> of_obj o b -> upd_own own (length (w_heap w)) c b = c0) as O1.
  { intros c0 o b E B. destruct (IO c0 o E) as [H _]. destruct (H b B). rewrite own_old; auto. }
  assert (forall c0 o b, nth_error (w_objs w) c0 = Some o -> of_obj o b -> (b < length (w_heap w))%nat) as O2.
  { intros c0 o b E B. apply (IO c0 o E). auto. }
  destruct K as [e|o v E B|o l E|o v l E B LB NP|k i y c0 u -> E LI|o o' E G A Gd|o o' l E G A Gd|o o' l E G A Gd|g a o -> G A Gd]; try apply part_base in B; try (apply (f_equal v_base) in G; apply (f_equal v_base) in A; cbn [v_base whole] in G, A); cbn [w_heap w_objs w_log].
  - split; cbn [w_heap w_objs w_log].
    + intros c0 o E. split; [|apply (IO c0 o E)]. intros b B. split; [eapply O2; eauto|eapply O1; eauto].
    + intros k c0 v E. apply nth_snoc in E as [E|[_ E]]; [|discriminate]. destruct (IL k c0 v E) as (L1 & L2 & L3). rewrite own_old; auto.
  - split; cbn [w_heap w_objs w_log].
    + intros c0 o0 E0. split; [|apply (IO c0 o0 E0)]. intros b B0. split; [eapply O2; eauto|eapply O1; eauto].
    + intros k c0 v0 E0. apply nth_snoc in E0 as [E0|[_ E0]].
      * destruct (IL k c0 v0 E0) as (L1 & L2 & L3). rewrite own_old; auto.
      * injection E0 as -> ->. split; [eapply nth_some_lt; eauto|]. split; [eapply O2; eauto|eapply O1; eauto].
  - split; cbn [w_heap w_objs w_log]; rewrite ?app_length; cbn [length].
    + intros c0 o0 E0. split; [|apply (IO c0 o0 E0)]. intros b B0. split; [pose proof (O2 c0 o0 b E0 B0); lia|eapply O1; eauto].
    + intros k c0 v0 E0. apply nth_snoc in E0 as [E0|[_ E0]].
      * destruct (IL k c0 v0 E0) as (L1 & L2 & L3). rewrite own_old; auto. split; [auto|]. split; [lia|auto].
      * injection E0 as -> ->. split; [eapply nth_some_lt; eauto|]. cbn [whole v_base]. split; [lia|]. apply own_new. lia.
  - split; cbn [w_heap w_objs w_log]; rewrite ?store_length.
    + intros c0 o0 E0. split; [|apply (IO c0 o0 E0)]. intros b B0. split; [eapply O2; eauto|eapply O1; eauto].
    + intros k c0 v0 E0. apply nth_snoc in E0 as [E0|[_ E0]]; [|discriminate]. destruct (IL k c0 v0 E0) as (L1 & L2 & L3). rewrite own_old; auto.
  - split; cbn [w_heap w_objs w_log]; rewrite ?store_length.
    + intros c1 o0 E0. split; [|apply (IO c1 o0 E0)]. intros b B0. split; [eapply O2; eauto|eapply O1; eauto].
    + intros k0 c1 v0 E0. apply nth_snoc in E0 as [E0|[_ E0]]; [|discriminate]. destruct (IL k0 c1 v0 E0) as (L1 & L2 & L3). rewrite own_old; auto.
  - split; cbn [w_heap w_objs w_log]; rewrite ?upd_length.
    + intros c0 o0 E0. fold c in E0, E. destruct (Nat.eq_dec c0 c) as [->|N].
      * rewrite (nth_upd_eq _ _ _ _ E) in E0. injection E0 as <-. unfold of_obj. rewrite G, A.
        split; [|apply (IO c o E)]. intros b B0. split; [eapply O2; eauto|eapply O1; eauto].
      * rewrite nth_upd_other in E0 by auto. split; [|apply (IO c0 o0 E0)]. intros b B0. split; [eapply O2; eauto|eapply O1; eauto].
    + intros k c0 v0 E0. apply nth_snoc in E0 as [E0|[_ E0]]; [|discriminate]. destruct (IL k c0 v0 E0) as (L1 & L2 & L3). rewrite own_old; auto.
  - split; cbn [w_heap w_objs w_log]; rewrite ?upd_length, ?app_length; cbn [length].
    + intros c0 o0 E0. fold c in E0, E. destruct (Nat.eq_dec c0 c) as [->|N].
      * rewrite (nth_upd_eq _ _ _ _ E) in E0. injection E0 as <-. unfold of_obj. rewrite G, A. cbn [whole v_base].
        assert (v_base (k_added o) < length (w_heap w))%nat as L by (apply (O2 c o); auto; right; auto).
        split; [|lia]. intros b [->| ->]; [split; [lia|apply own_new; lia]|]. split; [lia|]. eapply O1; eauto. right. auto.
      * rewrite nth_upd_other in E0 by auto. split; [|apply (IO c0 o0 E0)]. intros b B0. split; [pose proof (O2 c0 o0 b E0 B0); lia|eapply O1; eauto].
    + intros k c0 v0 E0. apply nth_snoc in E0 as [E0|[_ E0]]; [|discriminate]. destruct (IL k c0 v0 E0) as (L1 & L2 & L3). rewrite own_old; auto.
      split; [auto|]. split; [lia|auto].
  - split; cbn [w_heap w_objs w_log]; rewrite ?upd_length, ?app_length; cbn [length].
    + intros c0 o0 E0. fold c in E0, E. destruct (Nat.eq_dec c0 c) as [->|N].
      * rewrite (nth_upd_eq _ _ _ _ E) in E0. injection E0 as <-. unfold of_obj. rewrite G, A. cbn [whole v_base].
        assert (v_base (k_glass o) < length (w_heap w))%nat as L by (apply (O2 c o); auto; left; auto).
        split; [|lia]. intros b [->| ->]; [|split; [lia|apply own_new; lia]]. split; [lia|]. eapply O1; eauto. left. auto.
      * rewrite nth_upd_other in E0 by auto. split; [|apply (IO c0 o0 E0)]. intros b B0. split; [pose proof (O2 c0 o0 b E0 B0); lia|eapply O1; eauto].
    + intros k c0 v0 E0. apply nth_snoc in E0 as [E0|[_ E0]]; [|discriminate]. destruct (IL k c0 v0 E0) as (L1 & L2 & L3). rewrite own_old; auto.
      split; [auto|]. split; [lia|auto].
  - split; cbn [w_heap w_objs w_log]; rewrite ?app_length; cbn [length].
    + intros c0 o0 E0. apply nth_snoc in E0 as [E0|[-> ->]].
      * split; [|apply (IO c0 o0 E0)]. intros b B0. split; [pose proof (O2 c0 o0 b E0 B0); lia|eapply O1; eauto].
      * unfold of_obj. rewrite G, A. split; [|lia]. intros b [->| ->]; (split; [lia|apply own_new; lia]).
    + intros k c0 v0 E0. apply nth_snoc in E0 as [E0|[_ E0]]; [|discriminate]. destruct (IL k c0 v0 E0) as (L1 & L2 & L3). rewrite own_old; auto.
      split; [lia|]. split; [lia|auto].
Qed.
Lemma inv_empty : Inv w_empty (fun b => b).
Proof. split; intros k; [intros o E|intros c v E]; destruct k; discriminate. Qed.
Lemma history_app w a b : history w (a ++ b) = history (history w a) b.
Proof. unfold Model_cal.history. apply fold_left_app. Qed.
Lemma history_inv : forall xs w own, Inv w own -> exists own', Inv (history w xs) own'.
Proof.
  induction xs as [|x xs IH]; intros w own I; [eauto|]. cbn. destruct (perform_inv w own x I) as (own' & I' & _). eauto.
Qed.
Lemma reachable_inv w : reachable fsin fcos w -> exists own, Inv w own.
Proof. intros [xs ->]. eapply history_inv. apply inv_empty. Qed.

(** ---- reading ---- *)
Lemma read_app h t v : (v_base v < length h)%nat -> read (h ++ t) v = read h v.
Proof. intros H. unfold read. rewrite app_nth1 by auto. reflexivity. Qed.
Lemma read_store_other h v u l : v_base u <> v_base v -> read (store h v l) u = read h u.
Proof.
  intros N. unfold read, store. do 2 f_equal. revert N. generalize (v_base u), (v_base v). clear. intros a b. generalize (overwrite (nth b h []) (v_from v) l).
  intros x. revert a b. induction h as [|y h IH]; intros [|a] [|b] N; cbn; auto; try congruence. 
Qed.

(** a call changes no other object *)
Lemma effect_other w own x d : Inv w own -> d <> target_of w x -> (d < length (w_objs w))%nat -> readout (fst (effect w x)) d = readout w d.
Proof.
  intros I N D. pose proof (effect_kind w x) as K. destruct (effect w x) as [w' r]. cbn [fst snd] in *.
  destruct (nth_error (w_objs w) d) as [od|] eqn:Ed; [|apply nth_error_None in Ed; lia].
  destruct (i_obj _ _ I d od Ed) as [Hd Hne].
  assert (v_base (k_glass od) < length (w_heap w))%nat as Lg by (apply Hd; left; auto).
  assert (v_base (k_added od) < length (w_heap w))%nat as La by (apply Hd; right; auto).
  assert (forall b, of_obj od b -> own b = d) as Od by (intros b B; apply Hd; auto).
  destruct K as [e|o v E B|o l E|o v l E B LB NP|k i y c0 u -> E LI|o o' E G A Gd|o o' l E G A Gd|o o' l E G A Gd|g a o -> G A Gd]; try apply part_base in B; try (apply (f_equal v_base) in G; apply (f_equal v_base) in A; cbn [v_base whole] in G, A); auto; unfold readout; cbn [w_heap w_objs].
  - rewrite Ed, !read_app by auto. auto.
  - rewrite Ed. destruct (i_obj _ _ I _ o E) as [Ho _]. destruct (Ho _ B) as [_ Ob].
    rewrite !read_store_other; auto; intros Q; rewrite <- Q in Ob; apply N; rewrite <- Ob; symmetry; apply Od; [right|left]; auto.
  - rewrite Ed. destruct (i_log _ _ I _ _ _ E) as (_ & _ & Ob). cbn [target_of] in N. rewrite E in N.
    rewrite !read_store_other; auto; cbn [v_base]; intros Q; rewrite <- Q in Ob; apply N; rewrite <- Ob; symmetry; apply Od; [right|left]; auto.
  - rewrite nth_upd_other, Ed by auto. auto.
  - rewrite nth_upd_other, Ed, !read_app by auto. auto.
  - rewrite nth_upd_other, Ed, !read_app by auto. auto.
  - rewrite nth_error_app1, Ed, !read_app by auto. auto.
Qed.
Lemma perform_effect w x d : readout (fst (perform w x)) d = readout (fst (effect w x)) d.
Proof. unfold Model_cal.perform. destruct (effect w x) as [w' r]. reflexivity. Qed.
Lemma perform_result w x : snd (perform w x) = snd (effect w x).
Proof. unfold Model_cal.perform. destruct (effect w x) as [w' r]. reflexivity. Qed.
Lemma perform_objs w x : (length (w_objs w) <= length (w_objs (fst (perform w x))))%nat.
Proof.
  unfold Model_cal.perform. pose proof (effect_kind w x) as K. destruct (effect w x) as [w' r]. cbn [fst snd w_objs] in *.
  destruct K; cbn [w_objs]; rewrite ?upd_length, ?app_length; lia.
Qed.
Theorem independent w x d : reachable fsin fcos w -> d <> target_of w x -> (d < length (w_objs w))%nat -> readout (fst (perform w x)) d = readout w d.
Proof. intros R N D. destruct (reachable_inv w R) as (own & I). rewrite perform_effect. eapply effect_other; eauto. Qed.
Lemma reachable_perform w x : reachable fsin fcos w -> reachable fsin fcos (fst (perform w x)).
Proof. intros [xs ->]. exists (xs ++ [x]). rewrite history_app. reflexivity. Qed.
Theorem independent_history d : forall xs w, reachable fsin fcos w -> (d < length (w_objs w))%nat -> spares fsin fcos d w xs -> readout (history w xs) d = readout w d.
Proof.
  induction xs as [|x xs IH]; intros w R D S; auto. destruct S as [N S]. change (history w (x :: xs)) with (history (fst (perform w x)) xs). rewrite IH; auto.
  - apply independent; auto.
  - apply reachable_perform; auto.
  - pose proof (perform_objs w x). lia.
Qed.

(** ---- well formed views of the objects ---- *)
Definition full (h : list (list f64)) (v : view) : Prop := v_from v = 0%nat /\ v_len v = length (nth (v_base v) h []).
Definition fits (h : list (list f64)) (v : view) : Prop := (v_from v + v_len v <= length (nth (v_base v) h []))%nat.
Lemma overwrite_length a from l : (from + length l <= length a)%nat -> length (overwrite a from l) = length a.
Proof. intros H. unfold overwrite. rewrite !app_length, firstn_length, skipn_length. lia. Qed.
Lemma nth_store h v l b : nth b (store h v l) [] = if Nat.eqb b (v_base v) && Nat.ltb b (length h) then overwrite (nth b h []) (v_from v) l else nth b h [].
Proof.
  unfold store. generalize (v_base v) as a. intros a. destruct (Nat.eqb_spec b a) as [->|N]; cbn [andb].
  - destruct (Nat.ltb_spec a (length h)) as [L|L].
    + generalize (overwrite (nth a h []) (v_from v) l). revert a L. induction h as [|x h IH]; intros [|a] L y; cbn in *; auto; try lia. apply IH. lia.
    + rewrite !nth_overflow; auto. rewrite upd_length. auto.
  - generalize (overwrite (nth a h []) (v_from v) l). revert a b N. induction h as [|x h IH]; intros [|a] [|b] N y; cbn; auto; try congruence.
Qed.
Lemma full_store h u v l : full h u -> (v_from v + length l <= length (nth (v_base v) h []))%nat -> full (store h v l) u.
Proof.
  intros [F L] H. split; auto. rewrite nth_store. destruct (Nat.eqb_spec (v_base u) (v_base v)) as [E|]; cbn [andb]; auto.
  destruct (Nat.ltb _ _); auto. rewrite E in *. rewrite overwrite_length; auto.
Qed.
Lemma full_app h t u : (v_base u < length h)%nat -> full h u -> full (h ++ t) u.
Proof. intros B [F L]. split; auto. rewrite app_nth1; auto. Qed.
Lemma nth_app_new {A} (h : list A) x d : nth (length h) (h ++ [x]) d = x.
Proof. rewrite app_nth2, Nat.sub_diag by lia. reflexivity. Qed.
Lemma full_whole h l : full (h ++ [l]) (whole h l).
Proof. split; [reflexivity|]. cbn [whole v_base v_len]. rewrite nth_app_new. reflexivity. Qed.
Lemma read_full h v : full h v -> read h v = nth (v_base v) h [].
Proof. intros [F L]. unfold read. rewrite F, L. cbn [skipn]. apply firstn_all. Qed.

(** what an effect does to one object, value by value *)
Lemma slice_fits h v lo hi : full h v -> fits h (slice v lo hi).
Proof. intros [F L]. unfold fits. cbn [slice v_base v_from v_len]. rewrite F, <- L. lia. Qed.
Lemma full_fits h v : full h v -> fits h v.
Proof. intros [F L]. unfold fits. rewrite F, L. lia. Qed.
Lemma fits_app h t u : (v_base u < length h)%nat -> fits h u -> fits (h ++ t) u.
Proof. intros B L. unfold fits. rewrite app_nth1; auto. Qed.
Lemma fits_store h u v l : fits h u -> (v_from v + length l <= length (nth (v_base v) h []))%nat -> fits (store h v l) u.
Proof.
  unfold fits. intros L H. rewrite nth_store. destruct (Nat.eqb_spec (v_base u) (v_base v)) as [E|]; cbn [andb]; auto.
  destruct (Nat.ltb _ _); auto. rewrite E in *. rewrite overwrite_length; auto.
Qed.
Lemma read_slice h v lo hi : full h v -> (lo <= hi)%nat -> read h (slice v lo hi) = firstn (hi - lo) (skipn lo (nth (v_base v) h [])).
Proof.
  intros [F L] H. unfold read. cbn [slice v_base v_from v_len]. rewrite F. cbn [Nat.add]. rewrite L. set (a := nth (v_base v) h []). clearbody a.
  destruct (Nat.le_gt_cases (length a) lo) as [X|X].
  - rewrite !(Nat.min_r _ (length a)) by lia. rewrite !skipn_all2 by lia. rewrite !firstn_nil. reflexivity.
  - rewrite (Nat.min_l lo) by lia. destruct (Nat.le_gt_cases hi (length a)) as [Y|Y]; [rewrite Nat.min_l by lia; reflexivity|].
    rewrite Nat.min_r by lia. rewrite !firstn_all2; auto; rewrite skipn_length; lia.
Qed.
Record Shape (w : world) : Prop := mk_shape {
  s_obj : forall c o, nth_error (w_objs w) c = Some o -> full (w_heap w) (k_glass o) /\ full (w_heap w) (k_added o) /\ good o;
  s_log : forall k c v, nth_error (w_log w) k = Some (c, Some v) -> fits (w_heap w) v }.
Lemma part_fits h o v : full h (k_glass o) -> full h (k_added o) -> part_of o v -> fits h v.
Proof. intros G A [->|(lo & hi & ->)]; [apply full_fits; auto|apply slice_fits; auto]. Qed.
Lemma perform_shape w own x : Inv w own -> Shape w -> Shape (fst (perform w x)).
Proof.
  intros [IO IL] [SO SL]. pose proof (effect_kind w x) as K. unfold Model_cal.perform. destruct (effect w x) as [w' r]. cbn [fst snd] in *.
  assert (forall c o, nth_error (w_objs w) c = Some o -> (v_base (k_glass o) < length (w_heap w))%nat /\ (v_base (k_added o) < length (w_heap w))%nat) as B0.
  { intros c o E. split; apply (IO c o E); [left|right]; auto. }
  assert (forall t c o, nth_error (w_objs w) c = Some o -> full (w_heap w ++ t) (k_glass o) /\ full (w_heap w ++ t) (k_added o) /\ good o) as Ap.
  { intros t c o E. destruct (SO c o E) as (F1 & F2 & F3). destruct (B0 c o E). split; [apply full_app; auto|]. split; [apply full_app; auto|auto]. }
  assert (forall t k c v, nth_error (w_log w) k = Some (c, Some v) -> fits (w_heap w ++ t) v) as Al.
  { intros t k c v E. apply fits_app; [apply (IL k c v E)|eapply SL; eauto]. }
  destruct K as [e|o v E B|o l E|o v l E B LB NP|k i y c0 u -> E LI|o o' E G A Gd|o o' l E G A Gd|o o' l E G A Gd|g a o -> G A Gd]; split; cbn [w_heap w_objs w_log]; auto.
  - intros k c0 v E. apply nth_snoc in E as [E|[_ E]]; [eauto|discriminate].
  - intros k c0 v0 E0. apply nth_snoc in E0 as [E0|[_ E0]]; [eauto|]. injection E0 as -> ->. destruct (SO _ o E) as (F1 & F2 & _). eapply part_fits; eauto.
  - apply Ap.
  - intros k c0 v0 E0. apply nth_snoc in E0 as [E0|[_ E0]]; [eauto|]. injection E0 as -> ->. apply full_fits, full_whole.
  - intros c0 o0 E0. destruct (SO c0 o0 E0) as (F1 & F2 & F3). destruct (SO _ o E) as (F4 & F5 & _). pose proof (part_fits _ o v F4 F5 B) as Fi. unfold fits in Fi.
    split; [apply full_store; auto; lia|]. split; [apply full_store; auto; lia|auto].
  - intros k c0 v0 E0. apply nth_snoc in E0 as [E0|[_ E0]]; [|discriminate]. destruct (SO _ o E) as (F4 & F5 & _). pose proof (part_fits _ o v F4 F5 B) as Fi. unfold fits in Fi.
    apply fits_store; [eauto|lia].
  - intros c1 o0 E0. destruct (SO c1 o0 E0) as (F1 & F2 & F3). pose proof (SL _ _ _ E) as Fi. unfold fits in Fi.
    split; [apply full_store; auto; cbn; lia|]. split; [apply full_store; auto; cbn; lia|auto].
  - intros k1 c1 v0 E0. apply nth_snoc in E0 as [E0|[_ E0]]; [|discriminate]. pose proof (SL _ _ _ E) as Fi. unfold fits in Fi.
    apply fits_store; [eauto|cbn; lia].
  - intros c0 o0 E0. destruct (Nat.eq_dec c0 (target_of w x)) as [->|N]; [|rewrite nth_upd_other in E0 by auto; eauto].
    rewrite (nth_upd_eq _ _ _ _ E) in E0. injection E0 as <-. destruct (SO _ o E) as (F1 & F2 & F3). rewrite G, A. auto.
  - intros k c0 v0 E0. apply nth_snoc in E0 as [E0|[_ E0]]; [eauto|discriminate].
  - intros c0 o0 E0. destruct (Nat.eq_dec c0 (target_of w x)) as [->|N]; [|rewrite nth_upd_other in E0 by auto; eauto].
    rewrite (nth_upd_eq _ _ _ _ E) in E0. injection E0 as <-. destruct (Ap [l] _ o E) as (F1 & F2 & F3). rewrite G, A. split; [apply full_whole|auto].
  - intros k c0 v0 E0. apply nth_snoc in E0 as [E0|[_ E0]]; [eauto|discriminate].
  - intros c0 o0 E0. destruct (Nat.eq_dec c0 (target_of w x)) as [->|N]; [|rewrite nth_upd_other in E0 by auto; eauto].
    rewrite (nth_upd_eq _ _ _ _ E) in E0. injection E0 as <-. destruct (Ap [l] _ o E) as (F1 & F2 & F3). rewrite G, A. split; [auto|]. split; [apply full_whole|auto].
  - intros k c0 v0 E0. apply nth_snoc in E0 as [E0|[_ E0]]; [eauto|discriminate].
  - intros c0 o0 E0. apply nth_snoc in E0 as [E0|[-> ->]]; [eauto|]. rewrite G, A. split; [|split; [|auto]]; (split; [reflexivity|]); cbn [v_base v_len].
    + rewrite app_nth2, Nat.sub_diag by lia. reflexivity.
    + rewrite app_nth2 by lia. replace (Datatypes.S (length (w_heap w)) - length (w_heap w))%nat with 1%nat by lia. reflexivity.
  - intros k c0 v0 E0. apply nth_snoc in E0 as [E0|[_ E0]]; [eauto|discriminate].
Qed.
Lemma reachable_shape w : reachable fsin fcos w -> Shape w.
Proof.
  intros [xs ->]. enough (forall ys v own, Inv v own -> Shape v -> Shape (history v ys)) as H.
  { eapply H; [apply inv_empty|]. split; intros k; [intros o E|intros c v E]; destruct k; discriminate. }
  induction ys as [|y ys IH]; intros v own I S; auto. change (history v (y :: ys)) with (history (fst (perform v y)) ys).
  destruct (perform_inv v own y I) as (own' & I' & _). eapply IH; eauto. eapply perform_shape; eauto.
Qed.
Theorem rotation_kept w c v : reachable fsin fcos w -> readout w c = Some v ->
  exists o p k, xf_ang (cf_ext v) = [o; p; k] /\ xf_dm (cf_ext v) = frotation fsin fcos o p k.
Proof.
  intros R E. pose proof (reachable_shape w R) as [SO _]. unfold readout in E. destruct (nth_error _ _) as [o|] eqn:Eo; [|discriminate].
  injection E as <-. destruct (SO c o Eo) as (_ & _ & _ & _ & H). exact H.
Qed.
End P.
