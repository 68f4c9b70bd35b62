(** Proofs for C75: values set and shown, live and detached arrays. *)
From Verif Require Import Base Lib F64 Model_par Model_cal Spec_cal Proof_cal.
Local Open Scope Z_scope.

Section P.
Variables fsin fcos : f64 -> f64.
Notation effect := (effect fsin fcos).
Notation perform := (perform fsin fcos).
Notation history := (history fsin fcos).

Lemma read_store_full h u v l : full h u -> (v_base u < length h)%nat -> v_base u = v_base v ->
  (v_from v + length l <= length (nth (v_base v) h []))%nat -> read (store h v l) u = overwrite (read h u) (v_from v) l.
Proof.
  intros F B E H. rewrite read_full by (apply full_store; auto). rewrite (read_full h u F), nth_store, E, Nat.eqb_refl, <- E.
  destruct (Nat.ltb_spec (v_base u) (length h)); [reflexivity|lia].
Qed.

Lemma part_value w own c o n lo hi l v : Inv w own -> Shape fsin fcos w -> nth_error (w_objs w) c = Some o -> readout w c = Some v -> length l = n ->
  let m := length (cf_added v) in
  if Nat.eqb (Nat.min hi m - Nat.min lo m) n
  then snd (set_part w c o n lo hi (Vec l)) = Ok None /\
       readout (fst (set_part w c o n lo hi (Vec l))) c = Some (with_added v (overwrite (cf_added v) (Nat.min lo m) l))
  else set_part w c o n lo hi (Vec l) = (w, Exn ValueError).
Proof.
  intros I S O R Ln. destruct (s_obj _ _ _ S c o O) as (Fg & Fa & _). destruct (i_obj _ _ I c o O) as [Ho Hne].
  assert (v_base (k_added o) < length (w_heap w))%nat as La by (apply Ho; right; auto).
  unfold readout in R. rewrite O in R. injection R as <-. cbn [cf_added].
  assert (length (read (w_heap w) (k_added o)) = v_len (k_added o)) as Lm by (rewrite read_full by auto; symmetry; apply Fa).
  cbv zeta. rewrite Lm. unfold set_part. rewrite Ln, Nat.eqb_refl. unfold assign.
  change (v_len (slice (k_added o) lo hi)) with (Nat.min hi (v_len (k_added o)) - Nat.min lo (v_len (k_added o)))%nat. rewrite Ln.
  destruct (Nat.eqb_spec (Nat.min hi (v_len (k_added o)) - Nat.min lo (v_len (k_added o))) n) as [E|E]; [|reflexivity].
  split; [reflexivity|]. unfold ok. cbn [fst]. unfold readout. cbn [w_objs w_heap]. rewrite O. f_equal.
  pose proof (slice_fits (w_heap w) (k_added o) lo hi Fa) as Fi. unfold fits in Fi. cbn [slice v_base v_from v_len] in Fi. rewrite E in Fi.
  unfold with_added. cbn [cf_ext cf_int cf_glass]. f_equal.
  - apply read_store_other. cbn [slice v_base]. auto.
  - rewrite read_store_full; auto; [|cbn [slice v_base v_from]; lia]. cbn [slice v_from]. rewrite (proj1 Fa). reflexivity.
Qed.
Lemma failed_same w x e : snd (effect w x) = Exn e -> forall d, readout (fst (perform w x)) d = readout w d.
Proof.
  intros E d. rewrite perform_effect. pose proof (effect_kind fsin fcos w x) as K. destruct (effect w x) as [w' r]. cbn [fst snd] in *. subst r.
  inversion K; reflexivity.
Qed.
Lemma overwrite_radial (a l : list f64) : length l = 3%nat -> overwrite a (Nat.min 0 (length a)) l = l ++ skipn 3 a.
Proof. intros L. unfold overwrite. cbn [Nat.min firstn app Nat.add]. rewrite L. reflexivity. Qed.
Lemma overwrite_dec (a l : list f64) : length l = 2%nat -> (5 <= length a)%nat -> overwrite a (Nat.min 3 (length a)) l = firstn 3 a ++ l ++ skipn 5 a.
Proof. intros L H. unfold overwrite. rewrite Nat.min_l by lia. rewrite L. reflexivity. Qed.
Lemma overwrite_aff (a l : list f64) : length l = 2%nat -> length a = 7%nat -> overwrite a (Nat.min 5 (length a)) l = firstn 5 a ++ l.
Proof. intros L H. unfold overwrite. rewrite H. cbn [Nat.min]. rewrite L, skipn_all2 by (rewrite H; cbn; lia). rewrite app_nil_r. reflexivity. Qed.

Theorem setters w x c v : reachable fsin fcos w -> is_setter x = true -> target_of w x = c -> readout w c = Some v ->
  match after_set fsin fcos x v with
  | Some v' => snd (perform w x) = Ok None /\ readout (fst (perform w x)) c = Some v'
  | None => (snd (perform w x) = Exn ValueError \/ (exists m, x = SetRotation c m) /\ snd (perform w x) = Exn IndexError) /\
            forall d, readout (fst (perform w x)) d = readout w d
  end.
Proof.
  intros R IS T E. destruct (reachable_inv _ _ w R) as (own & I). pose proof (reachable_shape _ _ w R) as S.
  assert (forall b : Prop, (snd (effect w x) = Exn ValueError \/ b /\ snd (effect w x) = Exn IndexError) ->
    (snd (effect w x) = Exn ValueError \/ b /\ snd (effect w x) = Exn IndexError) /\ forall d, readout (fst (perform w x)) d = readout w d) as Fail.
  { intros b H. split; [exact H|]. destruct H as [H|[_ H]]; eapply failed_same; eauto. }
  rewrite perform_effect, perform_result.
  enough (match after_set fsin fcos x v with
    | Some v' => snd (effect w x) = Ok None /\ readout (fst (effect w x)) c = Some v'
    | None => snd (effect w x) = Exn ValueError \/ (exists m, x = SetRotation c m) /\ snd (effect w x) = Exn IndexError end) as G.
  { destruct (after_set fsin fcos x v); [exact G|apply Fail, G]. }
  clear Fail.
  assert (exists o, nth_error (w_objs w) c = Some o) as [o O]. { unfold readout in E. destruct (nth_error (w_objs w) c); [eauto|discriminate]. }
  assert (v = mk_calf (mk_extf (k_pos o) (k_ang o) (k_dm o)) (k_int o) (read (w_heap w) (k_glass o)) (read (w_heap w) (k_added o))) as Ev.
  { unfold readout in E. rewrite O in E. congruence. }
  destruct (i_obj _ _ I c o O) as [Ho Hne].
  assert (v_base (k_glass o) < length (w_heap w))%nat as Lg by (apply Ho; left; auto).
  assert (v_base (k_added o) < length (w_heap w))%nat as La by (apply Ho; right; auto).
  assert (forall h o', readout (set_obj w h c o') c = Some (mk_calf (mk_extf (k_pos o') (k_ang o') (k_dm o')) (k_int o') (read h (k_glass o')) (read h (k_added o')))) as RS.
  { intros h o'. unfold readout, set_obj. cbn [w_objs w_heap]. rewrite (nth_upd_eq _ _ _ _ O). reflexivity. }
  assert (length (cf_added v) = v_len (k_added o)) as Lm.
  { rewrite Ev. cbn [cf_added]. destruct (s_obj _ _ _ S c o O) as (_ & Fa & _). rewrite read_full by auto. symmetry. apply Fa. }
  assert (forall l, read (w_heap w ++ [l]) (whole (w_heap w) l) = l) as RW by (intros l; rewrite read_full by apply full_whole; apply nth_app_new).
  destruct x; try discriminate IS; cbn [target_of] in T; subst c0; cbn [Model_cal.effect after_set]; unfold with_obj; rewrite O.
  - destruct a as [l|]; [|left; reflexivity]. destruct l as [|a0 [|a1 [|a2 [|a3 l]]]]; try (left; reflexivity). cbn [length Nat.eqb].
    split; [reflexivity|]. unfold ok. cbn [fst]. rewrite RS, Ev. reflexivity.
  - destruct a as [l|]; [|left; reflexivity]. destruct l as [|a0 [|a1 [|a2 [|a3 l]]]]; try (left; reflexivity).
    split; [reflexivity|]. unfold ok. cbn [fst]. rewrite RS, Ev. reflexivity.
  - repeat (match goal with |- context [match ?a with _ => _ end] => destruct a end; try (left; reflexivity)). right. split; [eauto|reflexivity].
  - destruct a as [l|]; [|left; reflexivity]. destruct l as [|a0 [|a1 [|a2 [|a3 l]]]]; try (left; reflexivity). cbn [length Nat.eqb].
    split; [reflexivity|]. unfold ok. cbn [fst]. rewrite RS, Ev. reflexivity.
  - destruct a as [l|]; [|left; reflexivity]. destruct (Nat.eqb_spec (length l) 3) as [L|L]; cbn [andb].
    + pose proof (part_value w own c o 3 0 3 l v I S O E L) as P. cbv zeta in P. rewrite (overwrite_radial _ _ L) in P.
      destruct (Nat.leb_spec 3 (length (cf_added v))); destruct (Nat.eqb_spec (Nat.min 3 (length (cf_added v)) - Nat.min 0 (length (cf_added v))) 3); try lia; [exact P|].
      left. rewrite P. reflexivity.
    + left. unfold set_part. destruct (Nat.eqb_spec (length l) 3); [contradiction|reflexivity].
  - destruct a as [l|]; [|left; reflexivity]. destruct (Nat.eqb_spec (length l) 2) as [L|L]; cbn [andb].
    + pose proof (part_value w own c o 2 3 5 l v I S O E L) as P. cbv zeta in P.
      destruct (Nat.leb_spec 5 (length (cf_added v))) as [Q|Q]; destruct (Nat.eqb_spec (Nat.min 5 (length (cf_added v)) - Nat.min 3 (length (cf_added v))) 2); try lia.
      * rewrite (overwrite_dec _ _ L Q) in P. exact P.
      * left. rewrite P. reflexivity.
    + left. unfold set_part. destruct (Nat.eqb_spec (length l) 2); [contradiction|reflexivity].
  - destruct a as [l|]; [|left; reflexivity]. destruct (Nat.eqb_spec (length l) 2) as [L|L]; cbn [andb].
    + pose proof (part_value w own c o 2 5 (v_len (k_added o)) l v I S O E L) as P. cbv zeta in P.
      destruct (Nat.eqb_spec (length (cf_added v)) 7) as [Q|Q];
        destruct (Nat.eqb_spec (Nat.min (v_len (k_added o)) (length (cf_added v)) - Nat.min 5 (length (cf_added v))) 2); try lia.
      * rewrite (overwrite_aff _ _ L Q) in P. exact P.
      * left. rewrite P. reflexivity.
    + left. unfold set_part. destruct (Nat.eqb_spec (length l) 2); [contradiction|reflexivity].
  - destruct a as [l|]; [|left; reflexivity]. destruct l as [|a0 [|a1 [|a2 [|a3 l]]]]; try (left; reflexivity). cbn [length Nat.eqb].
    split; [reflexivity|]. unfold ok. cbn [fst]. rewrite RS, Ev. cbn [k_glass k_added k_pos k_ang k_dm k_int]. rewrite RW, read_app by auto. reflexivity.
  - split; [reflexivity|]. unfold ok. cbn [fst]. rewrite RS, Ev. cbn [k_glass k_added k_pos k_ang k_dm k_int]. rewrite RW, read_app by auto. reflexivity.
Qed.

(** ---- getters ---- *)
Lemma shows_new w x : forall v, snd (effect w x) = Ok (Some v) -> shows (fst (perform w x)) (length (w_log w)) = Some (read (w_heap (fst (effect w x))) v).
Proof.
  intros v E. pose proof (effect_kind fsin fcos w x) as K. unfold shows, Model_cal.perform. destruct (effect w x) as [w' r]. cbn [fst snd w_log w_heap] in *. subst r.
  assert (w_log w' = w_log w) as -> by (inversion K; reflexivity). rewrite nth_error_app2, Nat.sub_diag by lia. reflexivity.
Qed.
Theorem getters w x c v l : reachable fsin fcos w -> target_of w x = c -> readout w c = Some v -> shown x v = Some l ->
  (exists u, snd (perform w x) = Ok (Some u)) /\ shows (fst (perform w x)) (length (w_log w)) = Some l /\
  forall d, readout (fst (perform w x)) d = readout w d.
Proof.
  intros R T E Sh. destruct (reachable_inv _ _ w R) as (own & I). pose proof (reachable_shape _ _ w R) as S.
  assert (exists o, nth_error (w_objs w) c = Some o) as [o O]. { unfold readout in E. destruct (nth_error (w_objs w) c); [eauto|discriminate]. }
  assert (v = mk_calf (mk_extf (k_pos o) (k_ang o) (k_dm o)) (k_int o) (read (w_heap w) (k_glass o)) (read (w_heap w) (k_added o))) as Ev.
  { unfold readout in E. rewrite O in E. congruence. }
  destruct (s_obj _ _ _ S c o O) as (Fg & Fa & _).
  assert (forall t d, readout (mk_world (w_heap w ++ t) (w_objs w) (w_log w)) d = readout w d) as RA.
  { intros t d. unfold readout. cbn [w_objs w_heap]. destruct (nth_error (w_objs w) d) as [od|] eqn:Ed; auto.
    destruct (i_obj _ _ I d od Ed) as [Hd _]. rewrite !read_app; auto; apply Hd; [right|left]; auto. }
  assert (forall t, (snd (effect w x) = snd (fresh w t) /\ fst (effect w x) = fst (fresh w t) /\ l = t) ->
    (exists u, snd (perform w x) = Ok (Some u)) /\ shows (fst (perform w x)) (length (w_log w)) = Some l /\ forall d, readout (fst (perform w x)) d = readout w d) as Fr.
  { intros t (E1 & E2 & ->). rewrite perform_result. split; [rewrite E1; unfold fresh; cbn [snd]; eauto|]. split.
    - rewrite (shows_new w x (whole (w_heap w) t)) by (rewrite E1; reflexivity). rewrite E2. unfold fresh. cbn [fst w_heap].
      rewrite read_full by apply full_whole. cbn [whole v_base]. rewrite nth_app_new. reflexivity.
    - intros d. rewrite perform_effect, E2. apply RA. }
  assert (forall u, (snd (effect w x) = Ok (Some u) /\ fst (effect w x) = w /\ l = read (w_heap w) u) ->
    (exists u, snd (perform w x) = Ok (Some u)) /\ shows (fst (perform w x)) (length (w_log w)) = Some l /\ forall d, readout (fst (perform w x)) d = readout w d) as Li.
  { intros u (E1 & E2 & ->). rewrite perform_result. split; [rewrite E1; eauto|]. split.
    - rewrite (shows_new w x u E1), E2. reflexivity.
    - intros d. rewrite perform_effect, E2. reflexivity. }
  subst v. destruct x; try discriminate Sh; cbn [target_of] in T; subst c0; cbn [shown] in Sh; injection Sh as <-.
  - apply (Fr (k_pos o)). cbn [Model_cal.effect]. unfold with_obj. rewrite O. auto.
  - apply (Fr (k_ang o)). cbn [Model_cal.effect]. unfold with_obj. rewrite O. auto.
  - apply (Fr (concat (k_dm o))). cbn [Model_cal.effect]. unfold with_obj. rewrite O. auto.
  - apply (Fr (k_int o)). cbn [Model_cal.effect]. unfold with_obj. rewrite O. auto.
  - apply (Li (slice (k_added o) 0 3)). cbn [Model_cal.effect]. unfold with_obj. rewrite O. split; [auto|]. split; [auto|].
    rewrite read_slice by (auto; lia). cbn [cf_added]. rewrite read_full by auto. reflexivity.
  - apply (Li (slice (k_added o) 3 5)). cbn [Model_cal.effect]. unfold with_obj. rewrite O. split; [auto|]. split; [auto|].
    rewrite read_slice by (auto; lia). cbn [cf_added]. rewrite read_full by auto. reflexivity.
  - apply (Li (slice (k_added o) 5 (v_len (k_added o)))). cbn [Model_cal.effect]. unfold with_obj. rewrite O. split; [auto|]. split; [auto|].
    cbn [cf_added]. rewrite read_full by auto. unfold read. cbn [slice v_base v_from v_len]. rewrite (proj1 Fa), Nat.min_id. cbn [Nat.add].
    rewrite (proj2 Fa). set (a := nth (v_base (k_added o)) (w_heap w) []). clearbody a. destruct (Nat.le_gt_cases 5 (length a)) as [Q|Q].
    + rewrite Nat.min_l by lia. symmetry. apply firstn_all2. change (length (skipn 5 a) <= length a - 5)%nat. rewrite skipn_length. lia.
    + rewrite Nat.min_r by lia. change (skipn 5 a = firstn (length a - length a) (skipn (length a) a)). rewrite !skipn_all2 by lia. rewrite firstn_nil. reflexivity.
  - apply (Li (k_glass o)). cbn [Model_cal.effect]. unfold with_obj. rewrite O. auto.
Qed.

(** ---- arrays of their own never change unless the caller writes into them ---- *)
Definition Private (w : world) (k b : nat) : Prop :=
  (b < length (w_heap w))%nat /\ (k < length (w_log w))%nat /\ (forall c o, nth_error (w_objs w) c = Some o -> ~ of_obj o b) /\
  (forall j c v, nth_error (w_log w) j = Some (c, Some v) -> v_base v = b -> j = k).
Lemma log_kept w x : w_log (fst (perform w x)) = w_log w ++ [(target_of w x, match snd (effect w x) with Ok v => v | Exn _ => None end)].
Proof.
  unfold Model_cal.perform. pose proof (effect_kind fsin fcos w x) as K. destruct (effect w x) as [w' r]. cbn [fst snd w_log] in *.
  inversion K; reflexivity.
Qed.
Lemma log_nth w x k e : nth_error (w_log w) k = Some e -> nth_error (w_log (fst (perform w x))) k = Some e.
Proof. intros E. rewrite log_kept, nth_error_app1 by (eapply nth_some_lt; eauto). auto. Qed.
Lemma log_history : forall xs w k e, nth_error (w_log w) k = Some e -> nth_error (w_log (history w xs)) k = Some e.
Proof.
  induction xs as [|x xs IH]; intros w k e E; auto. change (history w (x :: xs)) with (history (fst (perform w x)) xs). apply IH, log_nth, E.
Qed.
Lemma heap_perform w x : w_heap (fst (perform w x)) = w_heap (fst (effect w x)) /\ w_objs (fst (perform w x)) = w_objs (fst (effect w x)).
Proof. unfold Model_cal.perform. destruct (effect w x). auto. Qed.
Lemma private_step w own x k b : Inv w own -> Private w k b -> pokes k x = false ->
  Private (fst (perform w x)) k b /\ nth b (w_heap (fst (perform w x))) [] = nth b (w_heap w) [].
Proof.
  intros I (B & Kl & NO & NL) NP. unfold Private. rewrite log_kept. destruct (heap_perform w x) as [-> ->].
  pose proof (effect_kind fsin fcos w x) as K. destruct (effect w x) as [w' r]. cbn [fst snd] in *.
  assert (forall u, v_base u <> b -> forall j c v,
    nth_error (w_log w ++ [(target_of w x, Some u)]) j = Some (c, Some v) -> v_base v = b -> j = k) as LU.
  { intros u Nu j c v E Eb. apply nth_snoc in E as [E|[_ E]]; [eauto|]. injection E as -> ->. contradiction. }
  assert (forall j c v, nth_error (w_log w ++ [(target_of w x, None)]) j = Some (c, Some v) -> v_base v = b -> j = k) as LN.
  { intros j c v E Eb. apply nth_snoc in E as [E|[_ E]]; [eauto|discriminate]. }
  assert (k < length (w_log w ++ [(target_of w x, match r with Ok v => v | Exn _ => None end)]))%nat as Kl' by (rewrite app_length; cbn; lia).
  destruct K as [e|o v E Bv|o l E|o v l E Bv LB NPk|k0 i y c0 u -> E LI|o o' E G A Gd|o o' l E G A Gd|o o' l E G A Gd|g a o -> G A Gd]; cbn [w_heap w_objs].
  - split; [split; [auto|]; split; [auto|]; split; [auto|exact LN]|auto].
  - split; [split; [auto|]; split; [auto|]; split; [auto|]|auto]. apply LU. intros <-. apply (NO _ _ E), part_base, Bv.
  - split; [split; [rewrite app_length; lia|]; split; [auto|]; split; [auto|]|apply app_nth1; auto]. apply LU. cbn. lia.
  - split; [split; [rewrite store_length; auto|]; split; [auto|]; split; [auto|exact LN]|].
    rewrite nth_store. destruct (Nat.eqb_spec b (v_base v)) as [->|]; auto. exfalso. apply (NO _ _ E), part_base, Bv.
  - split; [split; [rewrite store_length; auto|]; split; [auto|]; split; [auto|exact LN]|].
    rewrite nth_store. cbn [v_base]. destruct (Nat.eqb_spec b (v_base u)) as [->|]; auto. exfalso. pose proof (NL _ _ _ E eq_refl) as ->.
    cbn [pokes] in NP. rewrite Nat.eqb_refl in NP. discriminate.
  - split; [split; [auto|]; split; [auto|]; split; [|exact LN]|auto]. intros c o0 E0. destruct (Nat.eq_dec c (target_of w x)) as [->|N].
    + rewrite (nth_upd_eq _ _ _ _ E) in E0. injection E0 as <-. unfold of_obj. rewrite G, A. apply (NO _ _ E).
    + rewrite nth_upd_other in E0 by auto. eauto.
  - split; [split; [rewrite app_length; lia|]; split; [auto|]; split; [|exact LN]|apply app_nth1; auto]. intros c o0 E0. destruct (Nat.eq_dec c (target_of w x)) as [->|N].
    + rewrite (nth_upd_eq _ _ _ _ E) in E0. injection E0 as <-. unfold of_obj. rewrite G, A. cbn [whole v_base]. intros [->| ->]; [lia|]. apply (NO _ _ E). right. auto.
    + rewrite nth_upd_other in E0 by auto. eauto.
  - split; [split; [rewrite app_length; lia|]; split; [auto|]; split; [|exact LN]|apply app_nth1; auto]. intros c o0 E0. destruct (Nat.eq_dec c (target_of w x)) as [->|N].
    + rewrite (nth_upd_eq _ _ _ _ E) in E0. injection E0 as <-. unfold of_obj. rewrite G, A. cbn [whole v_base]. intros [->| ->]; [|lia]. apply (NO _ _ E). left. auto.
    + rewrite nth_upd_other in E0 by auto. eauto.
  - split; [split; [rewrite app_length; lia|]; split; [auto|]; split; [|exact LN]|apply app_nth1; auto]. intros c o0 E0. apply nth_snoc in E0 as [E0|[-> ->]]; [eauto|].
    unfold of_obj. rewrite G, A. cbn [v_base]. lia.
Qed.
Lemma private_history k b : forall xs w own, Inv w own -> Private w k b -> (forall x, In x xs -> pokes k x = false) ->
  nth b (w_heap (history w xs)) [] = nth b (w_heap w) [].
Proof.
  induction xs as [|x xs IH]; intros w own I P H; auto. change (history w (x :: xs)) with (history (fst (perform w x)) xs).
  destruct (perform_inv fsin fcos w own x I) as (own' & I' & _). destruct (private_step w own x k b I P (H x (or_introl eq_refl))) as [P' E].
  rewrite (IH _ own' I' P'); auto. intros y J. apply H. right. auto.
Qed.
Theorem snapshot w x c v l ys : reachable fsin fcos w -> target_of w x = c -> readout w c = Some v -> copies x = true -> shown x v = Some l ->
  let k := length (w_log w) in (forall y, In y ys -> pokes k y = false) -> shows (history (fst (perform w x)) ys) k = Some l.
Proof.
  intros R T E C Sh k NP. destruct (reachable_inv _ _ w R) as (own & I).
  destruct (getters w x c v l R T E Sh) as (_ & Hs & _). fold k in Hs.
  assert (exists t, effect w x = fresh w t) as [t Ef].
  { assert (exists o, nth_error (w_objs w) c = Some o) as [o O]. { unfold readout in E. destruct (nth_error (w_objs w) c); [eauto|discriminate]. }
    destruct x; try discriminate C; cbn [target_of] in T; subst c0; cbn [Model_cal.effect]; unfold with_obj; rewrite O; eauto. }
  unfold shows in *. destruct (nth_error (w_log (fst (perform w x))) k) as [[c' [u|]]|] eqn:En; try discriminate. injection Hs as Hs.
  rewrite (log_history ys _ _ _ En). f_equal. rewrite <- Hs.
  assert (u = whole (w_heap w) t) as Eu.
  { rewrite log_kept, nth_error_app2 in En by (unfold k; lia). unfold k in En. rewrite Nat.sub_diag, Ef in En. cbn in En. congruence. }
  assert (Private (fst (perform w x)) k (v_base u)) as P.
  { subst u. destruct (heap_perform w x) as [Hh Ho]. unfold Private. rewrite log_kept, Hh, Ho, Ef. unfold fresh. cbn [fst snd w_heap w_objs whole v_base].
    rewrite !app_length. cbn [length]. split; [lia|]. split; [unfold k; lia|]. split.
    - intros d o Eo Q. destruct (i_obj _ _ I d o Eo) as [H _]. destruct (H _ Q). lia.
    - intros j d u Eu Eb. apply nth_snoc in Eu as [Eu|[-> _]]; [|reflexivity]. destruct (i_log _ _ I j d u Eu) as (_ & L & _). lia. }
  destruct (perform_inv fsin fcos w own x I) as (own' & I' & _).
  unfold read. rewrite (private_history k (v_base u) ys _ own' I' P NP). reflexivity.
Qed.

(** ---- views stay attached until the array is replaced ---- *)
Lemma obj_kept w x c o : nth_error (w_objs w) c = Some o -> exists o', nth_error (w_objs (fst (perform w x))) c = Some o' /\
  (replaces_added c x = false -> k_added o' = k_added o) /\ (replaces_glass c x = false -> k_glass o' = k_glass o).
Proof.
  intros O. destruct (heap_perform w x) as [_ ->].
  assert (forall c0 f, (forall o0, nth_error (w_objs w) c0 = Some o0 -> exists o', nth_error (w_objs (fst (f o0))) c = Some o' /\
     (replaces_added c x = false -> k_added o' = k_added o) /\ (replaces_glass c x = false -> k_glass o' = k_glass o)) ->
     exists o', nth_error (w_objs (fst (with_obj w c0 f))) c = Some o' /\
     (replaces_added c x = false -> k_added o' = k_added o) /\ (replaces_glass c x = false -> k_glass o' = k_glass o)) as H.
  { intros c0 f F. unfold with_obj. destruct (nth_error (w_objs w) c0) eqn:E; [auto|]. exists o. auto. }
  assert (forall h c0 o0 o', nth_error (w_objs w) c0 = Some o0 -> 
     (c0 = c -> (replaces_added c x = false -> k_added o' = k_added o0) /\ (replaces_glass c x = false -> k_glass o' = k_glass o0)) ->
     exists o1, nth_error (w_objs (set_obj w h c0 o')) c = Some o1 /\
     (replaces_added c x = false -> k_added o1 = k_added o) /\ (replaces_glass c x = false -> k_glass o1 = k_glass o)) as U.
  { intros h c0 o0 o' E0 Q. unfold set_obj. cbn [w_objs]. destruct (Nat.eq_dec c c0) as [->|N].
    - exists o'. rewrite (nth_upd_eq _ _ _ _ E0). split; auto. rewrite E0 in O. injection O as <-. apply Q. auto.
    - exists o. rewrite nth_upd_other by auto. auto. }
  assert (exists o', nth_error (w_objs w) c = Some o' /\ (replaces_added c x = false -> k_added o' = k_added o) /\ (replaces_glass c x = false -> k_glass o' = k_glass o)) as Id by (exists o; auto).
  assert (forall c0 o0 n lo hi a, nth_error (w_objs (fst (set_part w c0 o0 n lo hi a))) c = nth_error (w_objs w) c) as Pt.
  { intros. unfold set_part. destruct a; auto. destruct (Nat.eqb _ _); auto. destruct (assign _ _ _); auto. }
  destruct x; cbn [Model_cal.effect]; try (apply H; intros o0 O0).
  - exists o. unfold ok. cbn [fst w_objs]. rewrite nth_error_app1 by (eapply nth_some_lt; eauto). auto.
  - destruct a as [[|? [|? [|? [|? ?]]]]|]; auto. eapply U; eauto.
  - destruct a as [[|? [|? [|? [|? ?]]]]|]; auto. eapply U; eauto.
  - repeat (match goal with |- context [match ?a with _ => _ end] => destruct a end; try exact Id).
  - destruct a as [[|? [|? [|? [|? ?]]]]|]; auto. eapply U; eauto.
  - rewrite Pt. auto.
  - rewrite Pt. auto.
  - rewrite Pt. auto.
  - destruct a as [[|? [|? [|? [|? ?]]]]|]; auto. eapply U; eauto. intros ->. split; auto. cbn [replaces_glass]. rewrite Nat.eqb_refl. discriminate.
  - eapply U; eauto. intros ->. split; auto. cbn [replaces_added]. rewrite Nat.eqb_refl. discriminate.
  - exact Id.
  - exact Id.
  - exact Id.
  - exact Id.
  - exact Id.
  - exact Id.
  - exact Id.
  - exact Id.
  - destruct (nth_error (w_log w) k) as [[? [?|]]|]; auto. destruct (Nat.ltb _ _); auto.
Qed.
Lemma kept_history c : forall ys w o, nth_error (w_objs w) c = Some o -> exists o', nth_error (w_objs (history w ys)) c = Some o' /\
  ((forall y, In y ys -> replaces_added c y = false) -> k_added o' = k_added o) /\ ((forall y, In y ys -> replaces_glass c y = false) -> k_glass o' = k_glass o).
Proof.
  induction ys as [|y ys IH]; intros w o O; [exists o; auto|]. change (history w (y :: ys)) with (history (fst (perform w y)) ys).
  destruct (obj_kept w y c o O) as (o1 & O1 & A1 & G1). destruct (IH _ o1 O1) as (o2 & O2 & A2 & G2). exists o2. split; auto. split; intros H.
  - rewrite A2, A1; auto. { apply H. left. auto. } intros z J. apply H. right. auto.
  - rewrite G2, G1; auto. { apply H. left. auto. } intros z J. apply H. right. auto.
Qed.
Lemma reachable_history w ys : reachable fsin fcos w -> reachable fsin fcos (history w ys).
Proof. intros [xs ->]. exists (xs ++ ys). rewrite history_app. reflexivity. Qed.
Theorem attached w x c v l ys : reachable fsin fcos w -> target_of w x = c -> readout w c = Some v -> copies x = false -> shown x v = Some l ->
  (forall y, In y ys -> detaches x y = false) ->
  let w' := history (fst (perform w x)) ys in
  exists v', readout w' c = Some v' /\ shows w' (length (w_log w)) = shown x v'.
Proof.
  intros R T E C Sh D w'. set (k := length (w_log w)).
  assert (exists o, nth_error (w_objs w) c = Some o) as [o O]. { unfold readout in E. destruct (nth_error (w_objs w) c); [eauto|discriminate]. }
  assert (exists u, effect w x = (w, Ok (Some u)) /\ ((u = k_glass o /\ x = GetGlass c) \/ exists lo hi, u = slice (k_added o) lo hi /\
    (x = GetRadial c /\ lo = 0%nat /\ hi = 3%nat \/ x = GetDecentering c /\ lo = 3%nat /\ hi = 5%nat \/ x = GetAffine c /\ lo = 5%nat /\ hi = v_len (k_added o)))) as (u & Ef & Hu).
  { destruct x; try discriminate C; try discriminate Sh; cbn [target_of] in T; subst c0; cbn [Model_cal.effect]; unfold with_obj; rewrite O; unfold live;
    eexists; (split; [reflexivity|]); [right; do 2 eexists; split; [reflexivity|]; auto|right; do 2 eexists; split; [reflexivity|]; auto|right; do 2 eexists; split; [reflexivity|]; auto|left; auto]. }
  assert (nth_error (w_log (fst (perform w x))) k = Some (c, Some u)) as En.
  { rewrite log_kept, nth_error_app2 by (unfold k; lia). unfold k. rewrite Nat.sub_diag, Ef, T. reflexivity. }
  assert (nth_error (w_objs (fst (perform w x))) c = Some o) as O1 by (destruct (heap_perform w x) as [_ ->]; rewrite Ef; exact O).
  destruct (kept_history c ys _ o O1) as (o' & O' & Ka & Kg). fold w' in O'.
  assert (reachable fsin fcos w') as R' by (apply reachable_history, reachable_perform; auto).
  pose proof (reachable_shape _ _ w' R') as S'. destruct (s_obj _ _ _ S' c o' O') as (Fg & Fa & _).
  unfold shows. rewrite (log_history ys _ _ _ En : nth_error (w_log w') k = _). unfold readout. rewrite O'. eexists. split; [reflexivity|].
  destruct Hu as [[-> ->]|(lo & hi & -> & Hx)].
  - cbn [detaches] in D. rewrite <- (Kg D). reflexivity.
  - assert (k_added o' = k_added o) as Ko by (apply Ka; intros y J; specialize (D y J); destruct Hx as [[-> _]|[[-> _]|[-> _]]]; exact D).
    rewrite <- Ko in Hx |- *. destruct Hx as [(-> & -> & ->)|[(-> & -> & ->)|(-> & -> & ->)]]; cbn [shown cf_added].
    + f_equal. rewrite (read_slice _ _ 0 3 Fa) by lia. rewrite read_full by auto. reflexivity.
    + f_equal. rewrite (read_slice _ _ 3 5 Fa) by lia. rewrite read_full by auto. reflexivity.
    + f_equal. rewrite (read_full _ _ Fa). unfold read. cbn [slice v_base v_from v_len]. rewrite (proj1 Fa), Nat.min_id.
      rewrite (proj2 Fa). set (a := nth (v_base (k_added o')) (w_heap w') []). clearbody a. destruct (Nat.le_gt_cases 5 (length a)) as [Q|Q].
      * rewrite Nat.min_l by lia. apply firstn_all2. rewrite ?Nat.add_0_l; rewrite ?Nat.min_l by lia; pose proof (skipn_length 5 a); cbn [Nat.add] in *; lia.
      * rewrite Nat.min_r by lia. rewrite !skipn_all2 by lia. rewrite firstn_nil. reflexivity.
Qed.

(** ---- writing into a returned array ---- *)
Lemma overwrite_one (a : list f64) j y : (j < length a)%nat -> overwrite a j [y] = upd a j y.
Proof.
  unfold overwrite. cbn [length]. revert j. induction a as [|x a IH]; intros [|j] H; cbn in H; [lia|lia|reflexivity|].
  cbn [firstn upd app Nat.add skipn]. f_equal. apply IH. lia.
Qed.
Lemma skipn_upd : forall f (a : list f64) i y, skipn f (upd a (f + i) y) = upd (skipn f a) i y.
Proof. induction f as [|f IH]; intros [|x a] i y; cbn; auto. Qed.
Lemma firstn_upd_lt : forall n (a : list f64) i y, (i < n)%nat -> firstn n (upd a i y) = upd (firstn n a) i y.
Proof. induction n as [|n IH]; intros [|x a] [|i] y H; cbn; auto; try lia. rewrite IH by lia. reflexivity. Qed.
Theorem written w k l i y : reachable fsin fcos w -> shows w k = Some l ->
  if Nat.ltb i (length l) then snd (perform w (Poke k i y)) = Ok None /\ shows (fst (perform w (Poke k i y))) k = Some (upd l i y)
  else snd (perform w (Poke k i y)) = Exn IndexError /\ shows (fst (perform w (Poke k i y))) k = Some l.
Proof.
  intros R Sh. pose proof (reachable_shape _ _ w R) as S. destruct (reachable_inv _ _ w R) as (own & I). unfold shows in Sh.
  destruct (nth_error (w_log w) k) as [[c [v|]]|] eqn:E; try discriminate. injection Sh as <-.
  pose proof (s_log _ _ _ S _ _ _ E) as F. unfold fits in F. destruct (i_log _ _ I _ _ _ E) as (_ & B & _).
  assert (length (read (w_heap w) v) = v_len v) as L by (unfold read; rewrite firstn_length, skipn_length; lia). rewrite L.
  rewrite perform_result. unfold shows. rewrite (log_nth w (Poke k i y) k _ E). destruct (heap_perform w (Poke k i y)) as [-> _].
  cbn [Model_cal.effect]. rewrite E. destruct (Nat.ltb_spec i (v_len v)) as [Q|Q]; [|split; reflexivity].
  split; [reflexivity|]. unfold ok. cbn [fst w_heap]. f_equal. unfold read at 1. rewrite nth_store. cbn [v_base v_from]. rewrite Nat.eqb_refl.
  destruct (Nat.ltb_spec (v_base v) (length (w_heap w))); [cbn [andb]|lia].
  rewrite overwrite_one by lia. rewrite skipn_upd, firstn_upd_lt by auto. reflexivity.
Qed.

(** ---- once replaced, a returned array is no longer touched by the object ---- *)
Definition Orphan (w : world) (b : nat) : Prop := (b < length (w_heap w))%nat /\ forall c o, nth_error (w_objs w) c = Some o -> ~ of_obj o b.
Lemma orphan_step w x b : Orphan w b -> is_poke x = false ->
  Orphan (fst (perform w x)) b /\ nth b (w_heap (fst (perform w x))) [] = nth b (w_heap w) [].
Proof.
  intros (B & NO) NP. unfold Orphan. destruct (heap_perform w x) as [-> ->].
  pose proof (effect_kind fsin fcos w x) as K. destruct (effect w x) as [w' r]. cbn [fst snd] in *.
  destruct K as [e|o v E Bv|o l E|o v l E Bv LB NPk|k0 i y c0 u -> E LI|o o' E G A Gd|o o' l E G A Gd|o o' l E G A Gd|g a o -> G A Gd]; cbn [w_heap w_objs].
  - auto.
  - auto.
  - split; [split; [rewrite app_length; lia|auto]|apply app_nth1; auto].
  - split; [split; [rewrite store_length; auto|auto]|]. rewrite nth_store. destruct (Nat.eqb_spec b (v_base v)) as [->|]; auto.
    exfalso. apply (NO _ _ E), part_base, Bv.
  - discriminate NP.
  - split; [split; [auto|]|auto]. intros c o0 E0. destruct (Nat.eq_dec c (target_of w x)) as [->|N].
    + rewrite (nth_upd_eq _ _ _ _ E) in E0. injection E0 as <-. unfold of_obj. rewrite G, A. apply (NO _ _ E).
    + rewrite nth_upd_other in E0 by auto. eauto.
  - split; [split; [rewrite app_length; lia|]|apply app_nth1; auto]. intros c o0 E0. destruct (Nat.eq_dec c (target_of w x)) as [->|N].
    + rewrite (nth_upd_eq _ _ _ _ E) in E0. injection E0 as <-. unfold of_obj. rewrite G, A. cbn [whole v_base]. intros [->| ->]; [lia|]. apply (NO _ _ E). right. auto.
    + rewrite nth_upd_other in E0 by auto. eauto.
  - split; [split; [rewrite app_length; lia|]|apply app_nth1; auto]. intros c o0 E0. destruct (Nat.eq_dec c (target_of w x)) as [->|N].
    + rewrite (nth_upd_eq _ _ _ _ E) in E0. injection E0 as <-. unfold of_obj. rewrite G, A. cbn [whole v_base]. intros [->| ->]; [|lia]. apply (NO _ _ E). left. auto.
    + rewrite nth_upd_other in E0 by auto. eauto.
  - split; [split; [rewrite app_length; lia|]|apply app_nth1; auto]. intros c o0 E0. apply nth_snoc in E0 as [E0|[-> ->]]; [eauto|].
    unfold of_obj. rewrite G, A. cbn [v_base]. lia.
Qed.
Lemma orphan_history b : forall xs w, Orphan w b -> (forall x, In x xs -> is_poke x = false) ->
  nth b (w_heap (history w xs)) [] = nth b (w_heap w) [].
Proof.
  induction xs as [|x xs IH]; intros w P H; auto. change (history w (x :: xs)) with (history (fst (perform w x)) xs).
  destruct (orphan_step w x b P (H x (or_introl eq_refl))) as [P' E]. rewrite (IH _ P'); auto. intros y J. apply H. right. auto.
Qed.
Theorem detached w x c v l zs y ys : reachable fsin fcos w -> target_of w x = c -> readout w c = Some v -> copies x = false -> shown x v = Some l ->
  (forall z, In z zs -> detaches x z = false) ->
  let w1 := history (fst (perform w x)) zs in
  detaches x y = true -> snd (perform w1 y) = Ok None -> (forall z, In z ys -> is_poke z = false) ->
  shows (history w1 (y :: ys)) (length (w_log w)) = shows w1 (length (w_log w)).
Proof.
  intros R T E C Sh D w1 Dy Ok1 NP. set (k := length (w_log w)).
  assert (exists o, nth_error (w_objs w) c = Some o) as [o O]. { unfold readout in E. destruct (nth_error (w_objs w) c); [eauto|discriminate]. }
  assert (exists u, effect w x = (w, Ok (Some u)) /\ ((u = k_glass o /\ x = GetGlass c) \/ v_base u = v_base (k_added o) /\ detaches x = replaces_added c)) as (u & Ef & Hu).
  { destruct x; try discriminate C; try discriminate Sh; cbn [target_of] in T; subst c0; cbn [Model_cal.effect]; unfold with_obj; rewrite O; unfold live;
    eexists; (split; [reflexivity|]); [right; auto|right; auto|right; auto|left; auto]. }
  assert (nth_error (w_log (fst (perform w x))) k = Some (c, Some u)) as En.
  { rewrite log_kept, nth_error_app2 by (unfold k; lia). unfold k. rewrite Nat.sub_diag, Ef, T. reflexivity. }
  assert (nth_error (w_objs (fst (perform w x))) c = Some o) as O1 by (destruct (heap_perform w x) as [_ ->]; rewrite Ef; exact O).
  destruct (kept_history c zs _ o O1) as (o' & O' & Ka & Kg). fold w1 in O'.
  assert (reachable fsin fcos w1) as R1 by (apply reachable_history, reachable_perform; auto).
  destruct (reachable_inv _ _ w1 R1) as (own & I).
  pose proof (log_history zs _ _ _ En : nth_error (w_log w1) k = _) as En1. destruct (i_log _ _ I _ _ _ En1) as (_ & Bu & Ow).
  assert (Orphan (fst (perform w1 y)) (v_base u) /\ nth (v_base u) (w_heap (fst (perform w1 y))) [] = nth (v_base u) (w_heap w1) []) as [Orp Eq].
  { unfold Orphan. destruct (heap_perform w1 y) as [-> ->]. rewrite perform_result in Ok1.
    assert (forall d od, nth_error (w_objs w1) d = Some od -> d <> c -> ~ of_obj od (v_base u)) as Far.
    { intros d od Ed Nd Q. destruct (i_obj _ _ I d od Ed) as [H _]. destruct (H _ Q) as [_ Z]. congruence. }
    destruct (i_obj _ _ I c o' O') as [Ho Hne].
    destruct Hu as [[-> ->]|[Eb Dx]].
    - cbn [detaches] in D, Dy. specialize (Kg D). destruct y; try discriminate Dy. cbn [replaces_glass] in Dy. apply Nat.eqb_eq in Dy as ->.
      cbn [Model_cal.effect] in *. unfold with_obj in *. rewrite O' in *. destruct a as [[|? [|? [|? [|? ?]]]]|]; try discriminate Ok1.
      unfold ok, set_obj. cbn [fst w_heap w_objs]. rewrite app_length. split; [split; [lia|]|apply app_nth1; auto].
      intros d od Ed. destruct (Nat.eq_dec d c) as [->|N].
      + rewrite (nth_upd_eq _ _ _ _ O') in Ed. injection Ed as <-. unfold of_obj. cbn [k_glass k_added whole v_base]. rewrite <- Kg. intros [Q|Q]; [rewrite Kg in Q; lia|congruence].
      + rewrite nth_upd_other in Ed by auto. eauto.
    - rewrite Dx in D, Dy. specialize (Ka D). destruct y; try discriminate Dy. cbn [replaces_added] in Dy. apply Nat.eqb_eq in Dy as ->.
      cbn [Model_cal.effect] in *. unfold with_obj in *. rewrite O' in *.
      unfold ok, set_obj. cbn [fst w_heap w_objs]. rewrite app_length. split; [split; [lia|]|apply app_nth1; auto].
      intros d od Ed. destruct (Nat.eq_dec d c) as [->|N].
      + rewrite (nth_upd_eq _ _ _ _ O') in Ed. injection Ed as <-. unfold of_obj. cbn [k_glass k_added whole v_base]. rewrite Eb, <- Ka. intros [Q|Q]; [congruence|rewrite Ka, <- Eb in Q; lia].
      + rewrite nth_upd_other in Ed by auto. eauto. }
  change (history w1 (y :: ys)) with (history (fst (perform w1 y)) ys). unfold shows. rewrite (log_history ys _ _ _ (log_nth w1 y k _ En1)), En1.
  f_equal. unfold read. rewrite (orphan_history _ ys _ Orp NP), Eq. reflexivity.
Qed.
End P.
