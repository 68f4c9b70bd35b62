(** Property C75: calibration objects. *)
From Verif Require Import Base F64 Model_par Model_cal Spec_cal Proof_cal Proof_cal2.
Local Open Scope Z_scope.

(** ===== C75: setters, getters and shared arrays over all histories of calls =====
    A setter with an argument of the right shape sets exactly its part and raises
    nothing; any other argument is refused with ValueError and changes nothing.
    set_rotation_matrix is always refused. *)
Theorem C75_set : forall fsin fcos w x c v, reachable fsin fcos w -> is_setter x = true -> target_of w x = c -> readout w c = Some v ->
  match after_set fsin fcos x v with
  | Some v' => snd (perform fsin fcos w x) = Ok None /\ readout (fst (perform fsin fcos w x)) c = Some v'
  | None => (snd (perform fsin fcos w x) = Exn ValueError \/ (exists m, x = SetRotation c m) /\ snd (perform fsin fcos w x) = Exn IndexError) /\
            forall d, readout (fst (perform fsin fcos w x)) d = readout w d
  end.
Proof. exact setters. Qed.
Print Assumptions C75_set.
(** a getter shows the current values and changes nothing *)
Theorem C75_get : forall fsin fcos w x c v l, reachable fsin fcos w -> target_of w x = c -> readout w c = Some v -> shown x v = Some l ->
  (exists u, snd (perform fsin fcos w x) = Ok (Some u)) /\ shows (fst (perform fsin fcos w x)) (length (w_log w)) = Some l /\
  forall d, readout (fst (perform fsin fcos w x)) d = readout w d.
Proof. exact getters. Qed.
Print Assumptions C75_get.
(** the rotation matrix is that of the angles, after every history *)
Theorem C75_rotation : forall fsin fcos w c v, reachable fsin fcos w -> readout w c = Some v ->
  exists o p k, xf_ang (cf_ext v) = [o; p; k] /\ xf_dm (cf_ext v) = frotation fsin fcos o p k.
Proof. exact rotation_kept. Qed.
Print Assumptions C75_rotation.
(** objects are independent: no call on one object, and no write into an array it
    returned, changes another object - for single calls and for whole histories *)
Theorem C75_independent : forall fsin fcos w x d, reachable fsin fcos w -> d <> target_of w x -> (d < length (w_objs w))%nat ->
  readout (fst (perform fsin fcos w x)) d = readout w d.
Proof. exact independent. Qed.
Print Assumptions C75_independent.
Theorem C75_independent_history : forall fsin fcos d xs w, reachable fsin fcos w -> (d < length (w_objs w))%nat -> spares fsin fcos d w xs ->
  readout (history fsin fcos w xs) d = readout w d.
Proof. exact independent_history. Qed.
Print Assumptions C75_independent_history.
(** position, angles, matrix and primary point come as copies: whatever is called
    later, the array keeps its values unless the caller writes into it *)
Theorem C75_snapshot : forall fsin fcos w x c v l ys, reachable fsin fcos w -> target_of w x = c -> readout w c = Some v ->
  copies x = true -> shown x v = Some l ->
  let k := length (w_log w) in (forall y, In y ys -> pokes k y = false) -> shows (history fsin fcos (fst (perform fsin fcos w x)) ys) k = Some l.
Proof. exact snapshot. Qed.
Print Assumptions C75_snapshot.
(** glass vector and distortion come as the object's own array: after any history
    (with writes into any array) that does not replace it, the array shows the current values of the object *)
Theorem C75_attached : forall fsin fcos w x c v l ys, reachable fsin fcos w -> target_of w x = c -> readout w c = Some v ->
  copies x = false -> shown x v = Some l -> (forall y, In y ys -> detaches x y = false) ->
  let w' := history fsin fcos (fst (perform fsin fcos w x)) ys in
  exists v', readout w' c = Some v' /\ shows w' (length (w_log w)) = shown x v'.
Proof. exact attached. Qed.
Print Assumptions C75_attached.
(** once replaced, it is the object's no longer: no later setter changes it *)
Theorem C75_detached : forall fsin fcos w x c v l zs y ys, reachable fsin fcos w -> target_of w x = c -> readout w c = Some v ->
  copies x = false -> shown x v = Some l -> (forall z, In z zs -> detaches x z = false) ->
  let w1 := history fsin fcos (fst (perform fsin fcos w x)) zs in
  detaches x y = true -> snd (perform fsin fcos w1 y) = Ok None -> (forall z, In z ys -> is_poke z = false) ->
  shows (history fsin fcos w1 (y :: ys)) (length (w_log w)) = shows w1 (length (w_log w)).
Proof. exact detached. Qed.
Print Assumptions C75_detached.
Example C75_detached_case : forall fsin fcos, let w := history fsin fcos w_empty [New] in let w1 := history fsin fcos (fst (perform fsin fcos w (GetRadial 0))) [] in
  detaches (GetRadial 0) (SetAdded 0 []) = true /\ snd (perform fsin fcos w1 (SetAdded 0 [])) = Ok None /\ shows w1 (length (w_log w)) = Some [fzero; fzero; fzero].
Proof. intros fsin fcos. repeat split. Qed.
(** writing into a returned array writes into that array *)
Theorem C75_written : forall fsin fcos w k l i y, reachable fsin fcos w -> shows w k = Some l ->
  if Nat.ltb i (length l) then snd (perform fsin fcos w (Poke k i y)) = Ok None /\ shows (fst (perform fsin fcos w (Poke k i y))) k = Some (upd l i y)
  else snd (perform fsin fcos w (Poke k i y)) = Exn IndexError /\ shows (fst (perform fsin fcos w (Poke k i y))) k = Some l.
Proof. exact written. Qed.
Print Assumptions C75_written.
(** so writing into the result of get_radial_distortion changes the calibration: for every object, entry and value *)
Theorem C75_live_refuted : forall fsin fcos w c v i y, reachable fsin fcos w -> readout w c = Some v -> (i < length (firstn 3 (cf_added v)))%nat ->
  exists v', readout (history fsin fcos w [GetRadial c; Poke (length (w_log w)) i y]) c = Some v' /\ firstn 3 (cf_added v') = upd (firstn 3 (cf_added v)) i y.
Proof.
  intros fsin fcos w c v i y R E L.
  destruct (getters fsin fcos w (GetRadial c) c v _ R eq_refl E eq_refl) as (_ & Sh & _).
  pose proof (written fsin fcos (fst (perform fsin fcos w (GetRadial c))) (length (w_log w)) _ i y (reachable_perform _ _ _ _ R) Sh) as W.
  destruct (Nat.ltb_spec i (length (firstn 3 (cf_added v)))); [|lia]. destruct W as [_ W].
  destruct (attached fsin fcos w (GetRadial c) c v _ [Poke (length (w_log w)) i y] R eq_refl E eq_refl eq_refl) as (v' & Ev & Sv).
  { intros z [<-|[]]. reflexivity. }
  exists v'. split; [exact Ev|]. change (Some (firstn 3 (cf_added v')) = Some (upd (firstn 3 (cf_added v)) i y)) || idtac.
  cbn [shown] in Sv. unfold history in Sv. cbn [fold_left] in Sv. rewrite W in Sv. congruence.
Qed.
Print Assumptions C75_live_refuted.
(** set_rotation_matrix always raises, in every state and for every argument *)
Theorem C75_set_rotation_refuted : forall fsin fcos w c v m, reachable fsin fcos w -> readout w c = Some v ->
  exists e, snd (perform fsin fcos w (SetRotation c m)) = Exn e.
Proof.
  intros fsin fcos w c v m R E. destruct (setters fsin fcos w (SetRotation c m) c v R eq_refl eq_refl E) as [[H|[_ H]] _]; eauto.
Qed.
Print Assumptions C75_set_rotation_refuted.

(** ---- non-vacuity: two objects, the second keeps its values ---- *)
Definition one := f_of_Z 1.
Definition demo : list call := [New; New; SetRadial 0 (Vec [one; one; one]); GetRadial 0; GetPos 1; Poke 3 1 fzero; SetGlass 1 (Vec [one; fzero; fzero])].
Example C75_demo : forall fsin fcos, exists v0 v1, let w := history fsin fcos w_empty demo in
  readout w 0 = Some v0 /\ readout w 1 = Some v1 /\ cf_added v0 = [one; fzero; one; fzero; fzero; one; fzero] /\ cf_added v1 = added_default /\
  shows w 3 = Some [one; fzero; one] /\ shows w 4 = Some [fzero; fzero; fzero] /\ cf_glass v1 = [one; fzero; fzero].
Proof. intros fsin fcos. eexists _, _. cbv zeta. split; [reflexivity|]. split; [reflexivity|]. repeat split. Qed.
Example C75_spares : forall fsin fcos, let w := history fsin fcos w_empty [New; New] in
  (1 < length (w_objs w))%nat /\ spares fsin fcos 1 w [SetRadial 0 (Vec [one; one; one]); GetRadial 0; Poke 3 1 fzero; New].
Proof. intros fsin fcos. split; [cbn; lia|]. repeat split; cbn; discriminate. Qed.
