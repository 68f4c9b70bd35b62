(** Base: exceptions as values, Python list/array indexing, range loops.
    These are the (small) semantics of the Python fragment the models use. *)
From Coq Require Export List Arith ZArith Lia Bool.
Export ListNotations.
Local Open Scope Z_scope.

(** Python exceptions that the modelled code can raise. *)
Inductive exn : Type :=
| IndexError | TypeError | ValueError | ZeroDivisionError | IOError
| AttributeError | FileNotFoundError | NameError | KeyError
| OutOfFuel (* never raised by Python: the model's loop bound was exhausted *).

Inductive result (A : Type) : Type := Ok (a : A) | Exn (e : exn).
Arguments Ok {A} a.
Arguments Exn {A} e.

Definition bind {A B} (m : result A) (k : A -> result B) : result B :=
  match m with Ok a => k a | Exn e => Exn e end.
Notation "'do' x <- m ; k" := (bind m (fun x => k))
  (at level 200, x pattern, m at level 100, k at level 200, right associativity).

(** Python/numpy index normalisation: -n <= i < n, negatives count from the end. *)
Definition pyidx (n : nat) (i : Z) : option nat :=
  if (0 <=? i) && (i <? Z.of_nat n) then Some (Z.to_nat i)
  else if (- Z.of_nat n <=? i) && (i <? 0) then Some (Z.to_nat (i + Z.of_nat n))
  else None.

Definition pyget {A} (l : list A) (i : Z) : result A :=
  match pyidx (length l) i with
  | Some k => match nth_error l k with Some a => Ok a | None => Exn IndexError end
  | None => Exn IndexError
  end.

(** list update at a nat index (no effect out of range) *)
Fixpoint upd {A} (l : list A) (k : nat) (v : A) : list A :=
  match l, k with
  | [], _ => []
  | _ :: t, O => v :: t
  | h :: t, S k' => h :: upd t k' v
  end.

Definition pyset {A} (l : list A) (i : Z) (v : A) : result (list A) :=
  match pyidx (length l) i with
  | Some k => Ok (upd l k v)
  | None => Exn IndexError
  end.

(** range(a, b) over Z *)
Definition zrange (a b : Z) : list Z :=
  map (fun k => a + Z.of_nat k) (seq 0 (Z.to_nat (b - a))).

(** for x in l: s = body s x   (body may raise) *)
Fixpoint foldM {S A} (f : S -> A -> result S) (l : list A) (s : S) : result S :=
  match l with
  | [] => Ok s
  | a :: t => do s' <- f s a; foldM f t s'
  end.

(** ---- facts ---- *)

Lemma pyidx_nonneg n i : 0 <= i < Z.of_nat n -> pyidx n i = Some (Z.to_nat i).
Proof.
  intros H. unfold pyidx.
  destruct (Z.leb_spec 0 i), (Z.ltb_spec i (Z.of_nat n)); simpl; try lia; reflexivity.
Qed.

Lemma pyidx_lt n i k : pyidx n i = Some k -> (k < n)%nat.
Proof.
  unfold pyidx.
  destruct (Z.leb_spec 0 i), (Z.ltb_spec i (Z.of_nat n)); simpl;
  try (intros [= <-]; lia);
  destruct (Z.leb_spec (- Z.of_nat n) i), (Z.ltb_spec i 0); simpl; intros H3;
  inversion H3; subst; lia.
Qed.

Lemma pyget_nonneg {A} (l : list A) i a :
  0 <= i -> nth_error l (Z.to_nat i) = Some a -> pyget l i = Ok a.
Proof.
  intros Hi Hn. unfold pyget.
  assert (Z.to_nat i < length l)%nat by (apply nth_error_Some; congruence).
  rewrite pyidx_nonneg by lia. now rewrite Hn.
Qed.

Lemma pyget_ok_iff {A} (l : list A) i a :
  0 <= i -> (pyget l i = Ok a <-> nth_error l (Z.to_nat i) = Some a).
Proof.
  intros Hi; split; [|now apply pyget_nonneg].
  unfold pyget, pyidx.
  destruct (Z.leb_spec 0 i); [|lia].
  destruct (Z.ltb_spec i (Z.of_nat (length l))); simpl.
  - destruct (nth_error l (Z.to_nat i)); congruence.
  - destruct (Z.leb_spec (- Z.of_nat (length l)) i), (Z.ltb_spec i 0); simpl; try lia; discriminate.
Qed.

Lemma pyget_exn_only {A} (l : list A) i e : pyget l i = Exn e -> e = IndexError.
Proof.
  unfold pyget. destruct (pyidx _ _); [destruct (nth_error _ _)|]; congruence.
Qed.

Lemma upd_length {A} (l : list A) k v : length (upd l k v) = length l.
Proof. revert k; induction l as [|h t IH]; intros [|k]; simpl; auto. Qed.

Lemma nth_error_upd {A} (l : list A) k v i :
  nth_error (upd l k v) i =
  if Nat.eqb i k then (if Nat.ltb k (length l) then Some v else None) else nth_error l i.
Proof.
  revert k i; induction l as [|h t IH]; intros [|k] [|i]; simpl; auto.
  - destruct (Nat.eqb i k); reflexivity.
  - rewrite IH. destruct (Nat.eqb i k); [|reflexivity].
    change (S k <? S (length t))%nat with (k <? length t)%nat. reflexivity.
Qed.

Lemma nth_error_upd_eq {A} (l : list A) k v :
  (k < length l)%nat -> nth_error (upd l k v) k = Some v.
Proof.
  intros H. rewrite nth_error_upd, Nat.eqb_refl.
  apply Nat.ltb_lt in H. now rewrite H.
Qed.

Lemma nth_error_upd_neq {A} (l : list A) k v i :
  i <> k -> nth_error (upd l k v) i = nth_error l i.
Proof. intros H. rewrite nth_error_upd. apply Nat.eqb_neq in H. now rewrite H. Qed.

Lemma upd_app_len {A} (l r : list A) h v :
  upd (l ++ h :: r) (length l) v = l ++ v :: r.
Proof. induction l as [|a l IH]; simpl; [reflexivity|]. now rewrite IH. Qed.

Lemma In_zrange a b x : In x (zrange a b) <-> a <= x < b.
Proof.
  unfold zrange. rewrite in_map_iff. split.
  - intros (k & <- & Hk). apply in_seq in Hk. lia.
  - intros H. exists (Z.to_nat (x - a)). split; [lia|]. apply in_seq. lia.
Qed.

Lemma zrange_length a b : length (zrange a b) = Z.to_nat (b - a).
Proof. unfold zrange. now rewrite map_length, seq_length. Qed.

Lemma zrange_empty a b : b <= a -> zrange a b = [].
Proof. intros H. unfold zrange. replace (Z.to_nat (b - a)) with O by lia. reflexivity. Qed.

Lemma zrange_cons a b : a < b -> zrange a b = a :: zrange (a + 1) b.
Proof.
  intros H. unfold zrange.
  replace (Z.to_nat (b - a)) with (S (Z.to_nat (b - (a + 1)))) by lia.
  simpl. f_equal; [lia|]. rewrite <- seq_shift, map_map. apply map_ext. intros; lia.
Qed.

Lemma foldM_app {S A} (f : S -> A -> result S) l1 l2 s :
  foldM f (l1 ++ l2) s = bind (foldM f l1 s) (foldM f l2).
Proof.
  revert s; induction l1 as [|a l1 IH]; intros s; simpl; [reflexivity|].
  destruct (f s a); simpl; auto.
Qed.

(** ---- loops with early return ---- *)
(** Outcome of a statement inside a function whose loops may `return`. *)
Inductive ctl (S : Type) : Type := Next (s : S) | Ret (s : S) | Raise (e : exn).
Arguments Next {S} s.
Arguments Ret {S} s.
Arguments Raise {S} e.

Definition bindC {S} (m : ctl S) (k : S -> ctl S) : ctl S :=
  match m with Next s => k s | Ret s => Ret s | Raise e => Raise e end.

(** evaluate an expression that may raise, then continue *)
Definition tryC {A S} (m : result A) (k : A -> ctl S) : ctl S :=
  match m with Ok a => k a | Exn e => Raise e end.

(** for x in l: body    (body may continue, return or raise) *)
Fixpoint forC {S A} (l : list A) (f : A -> S -> ctl S) (s : S) : ctl S :=
  match l with
  | [] => Next s
  | a :: t => bindC (f a s) (forC t f)
  end.

(** the function's result: falling through or returning give the state *)
Definition runC {S} (m : ctl S) : result S :=
  match m with Next s | Ret s => Ok s | Raise e => Exn e end.

Lemma foldM_inv {S A} (P : list A -> S -> Prop) (f : S -> A -> result S) l s s' :
  foldM f l s = Ok s' ->
  P [] s ->
  (forall done a rest s s1, l = done ++ a :: rest -> P done s -> f s a = Ok s1 -> P (done ++ [a]) s1) ->
  P l s'.
Proof.
  intros H0 HP Hstep.
  assert (G : forall rest done s, l = done ++ rest -> P done s -> foldM f rest s = Ok s' -> P l s').
  { induction rest as [|a rest IH]; intros done s1 E Hd Hf; simpl in Hf.
    - inversion Hf; subst s1. rewrite app_nil_r in E. rewrite E. exact Hd.
    - destruct (f s1 a) as [s2|e] eqn:Ef; simpl in Hf; [|discriminate].
      apply (IH (done ++ [a]) s2); auto.
      + rewrite <- app_assoc. exact E.
      + eapply Hstep; eauto. }
  exact (G l [] s eq_refl HP H0).
Qed.

(** total-success rule: if an invariant lets every step succeed, the loop succeeds *)
Lemma foldM_total {S A} (P : list A -> S -> Prop) (f : S -> A -> result S) l s :
  P [] s ->
  (forall done a rest s, l = done ++ a :: rest -> P done s ->
     exists s1, f s a = Ok s1 /\ P (done ++ [a]) s1) ->
  exists s', foldM f l s = Ok s' /\ P l s'.
Proof.
  intros HP Hstep.
  assert (G : forall rest done s, l = done ++ rest -> P done s ->
              exists s', foldM f rest s = Ok s' /\ P l s').
  { induction rest as [|a rest IH]; intros done s1 E Hd; simpl.
    - exists s1. split; auto. rewrite app_nil_r in E. now subst.
    - destruct (Hstep done a rest s1 E Hd) as (s2 & -> & H2). simpl.
      apply (IH (done ++ [a]) s2); auto. rewrite <- app_assoc. exact E. }
  exact (G l [] s eq_refl HP).
Qed.

Lemma zrange_split a b done x rest :
  zrange a b = done ++ x :: rest -> done = zrange a x /\ a <= x < b /\ x = a + Z.of_nat (length done).
Proof.
  intros E.
  assert (Hin : In x (zrange a b)) by (rewrite E; apply in_or_app; right; left; auto).
  apply In_zrange in Hin.
  assert (Hx : nth_error (zrange a b) (length done) = Some x)
    by (rewrite E, nth_error_app2 by lia; rewrite Nat.sub_diag; reflexivity).
  assert (Hn : forall c d k y, nth_error (zrange c d) k = Some y -> y = c + Z.of_nat k).
  { intros c d k y H. unfold zrange in H. rewrite nth_error_map in H.
    destruct (nth_error (seq 0 (Z.to_nat (d - c))) k) eqn:En; simpl in H; [|discriminate].
    inversion H; subst. f_equal. f_equal.
    assert (k < length (seq 0 (Z.to_nat (d - c))))%nat by (apply nth_error_Some; congruence).
    rewrite seq_length in H0. apply nth_error_nth with (d := O) in En.
    rewrite seq_nth in En by lia. lia. }
  pose proof (Hn _ _ _ _ Hx) as Hx2. split; [|split; auto].
  assert (E2 : firstn (length done) (zrange a b) = done).
  { rewrite E, firstn_app, Nat.sub_diag, firstn_all. simpl. apply app_nil_r. }
  rewrite <- E2 at 1. unfold zrange. rewrite firstn_map.
  f_equal. rewrite (Hx2). replace (Z.to_nat (a + Z.of_nat (length done) - a)) with (length done) by lia.
  assert (Hl : (length done <= Z.to_nat (b - a))%nat) by lia.
  clear -Hl. revert Hl. generalize (Z.to_nat (b - a)) (length done) O.
  induction n; intros m o Hm; destruct m; simpl; try lia; auto.
  f_equal. apply IHn. lia.
Qed.

Lemma pyset_ok {A} (l : list A) i v l' :
  0 <= i -> pyset l i v = Ok l' -> (Z.to_nat i < length l)%nat /\ l' = upd l (Z.to_nat i) v.
Proof.
  intros Hi. unfold pyset, pyidx.
  destruct (Z.leb_spec 0 i); [|lia].
  destruct (Z.ltb_spec i (Z.of_nat (length l))); simpl.
  - intros [= <-]. split; auto. lia.
  - destruct (Z.leb_spec (- Z.of_nat (length l)) i), (Z.ltb_spec i 0); simpl; try lia; discriminate.
Qed.

Lemma pyset_in_range {A} (l : list A) i v :
  0 <= i < Z.of_nat (length l) -> pyset l i v = Ok (upd l (Z.to_nat i) v).
Proof. intros H. unfold pyset. now rewrite pyidx_nonneg. Qed.

Lemma pyget_in_range {A} (l : list A) i :
  0 <= i < Z.of_nat (length l) -> exists a, pyget l i = Ok a /\ nth_error l (Z.to_nat i) = Some a.
Proof.
  intros H. destruct (nth_error l (Z.to_nat i)) as [a|] eqn:E.
  - exists a; split; auto. apply pyget_nonneg; auto; lia.
  - apply nth_error_None in E. lia.
Qed.

Lemma bind_ok {A B} (m : result A) (k : A -> result B) b :
  bind m k = Ok b -> exists a, m = Ok a /\ k a = Ok b.
Proof. destruct m; simpl; [eauto|discriminate]. Qed.
