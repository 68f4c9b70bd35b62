(** Round trip of path and correspondence files. *)
From Coq Require Import Reals Psatz.
From Flocq Require Import Core.Core IEEE754.BinarySingleNaN.
From Verif Require Import F64 F64R Model_text Proof_text Proof_text2 Model_corr Model_track Model_io Spec_io Proof_io Base.
Local Open Scope Z_scope.

(** ---- integers read as floats ---- *)
Lemma parse_float_int z : parse_float (print_int z) = Ok (f_of_dec (z <? 0) (Z.abs z) 0).
Proof.
  unfold parse_float. rewrite strip_nospace by apply print_int_word. unfold print_int.
  assert (G : forall (s : bool) ds, Forall isd ds -> ds <> [] -> digits_val ds = Z.abs z ->
    (if teqb (map digit_char ds) (txt "nan") then Ok S754_nan else if teqb (map digit_char ds) (txt "inf") then Ok (S754_infinity s) else
     let '(ip, rest) := span_digits (map digit_char ds) in
     let '(fp, rest2) := match rest with c :: r => if aeqb c "." then span_digits r else ([], rest) | [] => ([], []) end in
     match ip ++ fp with
     | [] => Exn ValueError
     | ds => match parse_exp rest2 with Some e => Ok (f_of_dec s (digits_val ds) (Z.of_nat (length fp) - e)) | None => Exn ValueError end
     end) = Ok (f_of_dec s (Z.abs z) 0)).
  { intros s ds D N V. assert (T : forall c r, is_digit c = false -> teqb (map digit_char ds) (c :: r) = false).
    { intros c r C. destruct (teqb_spec (map digit_char ds) (c :: r)) as [E|]; [|reflexivity]. destruct D as [|d ds D]; [contradiction|].
      injection E as E _. subst c. rewrite is_digit_char in C by assumption. discriminate. }
    change (txt "nan") with ("n"%char :: txt "an"). change (txt "inf") with ("i"%char :: txt "nf"). rewrite !T by reflexivity. rewrite span_map' by assumption. rewrite app_nil_r. destruct ds as [|d ds]; [contradiction|]. cbn [parse_exp length]. rewrite V. reflexivity. }
  destruct (Z.ltb_spec z 0) as [L|L].
  - destruct (print_nat_digits (- z)) as (ds & E & D & N & V); [lia|]. rewrite E. cbn [take_sign]. change (aeqb "-" "-") with true. cbv iota. apply G; try assumption. lia.
  - destruct (print_nat_digits z) as (ds & E & D & N & V); [lia|]. rewrite E. rewrite <- (app_nil_r (map digit_char ds)), sign_digits by assumption. rewrite app_nil_r. apply G; try assumption. lia.
Qed.
Lemma int_float z : exact_int z -> fin (f_of_dec (z <? 0) (Z.abs z) 0) /\ val (f_of_dec (z <? 0) (Z.abs z) 0) = IZR z.
Proof.
  intros H. unfold exact_int in H. assert (R1 : rnd (IZR (Z.abs z) / pow10 0) = IZR (Z.abs z)).
  { unfold pow10. change (10 ^ Z.of_nat 0)%Z with 1. unfold Rdiv. rewrite Rinv_1, Rmult_1_r. apply rnd_int. lia. }
  destruct (f_of_dec_correct (z <? 0) (Z.abs z) 0) as (F & V & S); [lia| |].
  - rewrite R1. apply int_lt_big. lia.
  - change (Z.of_nat 0) with 0 in *. split; [exact F|]. rewrite (val_sign _ (fin_isfin _ F)), S, V, R1.
    destruct (Z.ltb_spec z 0); [rewrite <- opp_IZR|]; f_equal; lia.
Qed.
Lemma as_int_val x z : fin x -> exact_int z -> val x = IZR z -> as_int x = z.
Proof.
  intros F H V. unfold as_int. rewrite (trunc_int _ z (fin_isfin _ F) V). unfold exact_int in H.
  assert (2 ^ 53 < 2 ^ 63) by reflexivity. destruct (Z.leb_spec (- 2 ^ 63) z); [|lia]. destruct (Z.ltb_spec z (2 ^ 63)); [reflexivity|lia].
Qed.
Lemma as_int_parse z : exact_int z -> as_int (f_of_dec (z <? 0) (Z.abs z) 0) = z.
Proof. intros H. destruct (int_float z H) as (F & V). now apply as_int_val. Qed.
Lemma wrap32_id z : int32 z -> wrap32 z = z.
Proof. intros H. unfold int32 in H. unfold wrap32. rewrite Z.mod_small; [lia|]. assert (2 ^ 32 = 2 * 2 ^ 31) by reflexivity. lia. Qed.
Lemma int32_exact z : int32 z -> exact_int z.
Proof. unfold int32, exact_int. assert (2 ^ 31 < 2 ^ 53) by reflexivity. lia. Qed.

(** ---- reading words ---- *)
Lemma from_cons w x rest : word w -> parse_float w = Ok x -> fromstring (w ++ sp :: rest) = x :: fromstring rest.
Proof. intros W P. unfold fromstring. rewrite split_word_space by (assumption || reflexivity). cbn [parse_prefix]. now rewrite P. Qed.
Lemma from_one w x : word w -> parse_float w = Ok x -> fromstring w = [x].
Proof. intros W P. unfold fromstring. rewrite split_word by assumption. cbn [parse_prefix]. now rewrite P. Qed.

Definition fint (z : Z) : f64 := f_of_dec (z <? 0) (Z.abs z) 0.
Definition x0 p := nth 0 (pr_x p) fzero.
Definition x1 p := nth 1 (pr_x p) fzero.
Definition x2 p := nth 2 (pr_x p) fzero.
Definition q0 c := nth 0 (co_p c) 0.
Definition q1 c := nth 1 (co_p c) 0.
Definition q2 c := nth 2 (co_p c) 0.
Definition q3 c := nth 3 (co_p c) 0.
Definition ltxt (p : path_rec) : text :=
  print_int (pr_prev p) ++ sp :: print_int (pr_next p) ++ sp :: print_fixed 3 (x0 p) ++ sp :: print_fixed 3 (x1 p) ++ sp :: print_fixed 3 (x2 p).
Definition ptxt (p : path_rec) : text := ltxt p ++ sp :: print_int (pr_prio p).
Definition ctxt (i : Z) (p : path_rec) (c : corres) : text :=
  print_int (i + 1) ++ sp :: print_fixed 3 (x0 p) ++ sp :: print_fixed 3 (x1 p) ++ sp :: print_fixed 3 (x2 p) ++ sp ::
  print_int (q0 c) ++ sp :: print_int (q1 c) ++ sp :: print_int (q2 c) ++ sp :: print_int (q3 c).

Lemma as_int_fint z : exact_int z -> as_int (fint z) = z. Proof. apply as_int_parse. Qed.
Lemma x3 p : path_ok p -> pr_x p = [x0 p; x1 p; x2 p].
Proof. intros (L & _). unfold x0, x1, x2. destruct (pr_x p) as [|a [|b [|c [|d r]]]]; try discriminate. reflexivity. Qed.
Lemma p4 c : corres_ok c -> co_p c = [q0 c; q1 c; q2 c; q3 c].
Proof. intros (L & _). unfold q0, q1, q2, q3. destruct (co_p c) as [|a [|b [|d [|e [|f r]]]]]; try discriminate. reflexivity. Qed.
Lemma link_row_ok p : path_ok p -> link_row p = Ok (ltxt p).
Proof. intros H. unfold link_row. rewrite (x3 p H). reflexivity. Qed.
Lemma prio_row_ok p : path_ok p -> prio_row p = Ok (ptxt p).
Proof. intros H. unfold prio_row. rewrite link_row_ok by assumption. reflexivity. Qed.
Lemma corr_row_ok i p c : path_ok p -> corres_ok c -> corr_row i p c = Ok (ctxt i p c).
Proof. intros H C. unfold corr_row. rewrite (x3 p H), (p4 c C). reflexivity. Qed.
Lemma nl_word t : word t -> noline t. Proof. intros (_ & H). now apply nospace_noline. Qed.
Ltac nolines := repeat first [apply nl_word; apply print_int_word|apply nl_word; apply print_fixed_word|apply noline_app|(constructor; [discriminate|])].
Lemma ltxt_noline p : noline (ltxt p). Proof. unfold ltxt. nolines. Qed.
Lemma ptxt_noline p : noline (ptxt p). Proof. unfold ptxt. apply noline_app; [apply ltxt_noline|nolines]. Qed.
Lemma ctxt_noline i p c : noline (ctxt i p c). Proof. unfold ctxt. nolines. Qed.

Lemma from_ltxt p : fromstring (ltxt p) = [fint (pr_prev p); fint (pr_next p); read_back 3 (x0 p); read_back 3 (x1 p); read_back 3 (x2 p)].
Proof.
  unfold ltxt. do 2 erewrite from_cons by (apply print_int_word || apply parse_float_int). do 2 erewrite from_cons by (apply print_fixed_word || apply parse_print_fixed).
  erewrite from_one by (apply print_fixed_word || apply parse_print_fixed). reflexivity.
Qed.
Lemma from_ptxt p : fromstring (ptxt p) = [fint (pr_prev p); fint (pr_next p); read_back 3 (x0 p); read_back 3 (x1 p); read_back 3 (x2 p); fint (pr_prio p)].
Proof.
  unfold ptxt, ltxt. rewrite <- !app_assoc. cbn [app]. rewrite <- !app_assoc. cbn [app]. rewrite <- !app_assoc. cbn [app]. rewrite <- !app_assoc. cbn [app].
  do 2 erewrite from_cons by (apply print_int_word || apply parse_float_int). do 3 erewrite from_cons by (apply print_fixed_word || apply parse_print_fixed).
  erewrite from_one by (apply print_int_word || apply parse_float_int). reflexivity.
Qed.
Lemma from_ctxt i p c : fromstring (ctxt i p c) = [fint (i + 1); read_back 3 (x0 p); read_back 3 (x1 p); read_back 3 (x2 p); fint (q0 c); fint (q1 c); fint (q2 c); fint (q3 c)].
Proof.
  unfold ctxt. erewrite from_cons by (apply print_int_word || apply parse_float_int). do 3 erewrite from_cons by (apply print_fixed_word || apply parse_print_fixed).
  do 3 erewrite from_cons by (apply print_int_word || apply parse_float_int). erewrite from_one by (apply print_int_word || apply parse_float_int). reflexivity.
Qed.

(** ---- all rows, written ---- *)
Fixpoint crows (i : Z) (l : list (path_rec * corres)) : list text :=
  match l with [] => [] | (p, c) :: r => ctxt i p c :: crows (i + 1) r end.
Definition file_of (ls : list text) : text := flat_map line ls.
Lemma pyget_pre {A} (pre : list A) a suf : pyget (pre ++ a :: suf) (Z.of_nat (length pre)) = Ok a.
Proof. apply pyget_nonneg; [lia|]. rewrite Nat2Z.id, nth_error_app2, Nat.sub_diag by lia. reflexivity. Qed.
Lemma write_rows_ok wp suf pre lt ct pt :
  Forall (fun x => path_ok (fst x) /\ corres_ok (snd x)) suf ->
  write_rows (zrange (Z.of_nat (length pre)) (Z.of_nat (length pre + length suf))) (map snd (pre ++ suf)) (map fst (pre ++ suf)) wp (lt, ct, pt)
  = ((lt ++ file_of (map (fun x => ltxt (fst x)) suf), ct ++ file_of (crows (Z.of_nat (length pre)) suf),
      if wp then pt ++ file_of (map (fun x => ptxt (fst x)) suf) else pt), None).
Proof.
  intros H. revert pre lt ct pt. induction H as [|[p c] suf [P C] H IH]; intros pre lt ct pt.
  - rewrite zrange_empty by (cbn; lia). cbn. rewrite !app_nil_r. now destruct wp.
  - cbn [fst snd] in P, C. rewrite zrange_cons by (cbn [length]; lia). cbn [write_rows]. rewrite !map_app. cbn [map fst snd].
    assert (LP : Z.of_nat (length pre) = Z.of_nat (length (map fst pre))) by now rewrite map_length.
    assert (LC : Z.of_nat (length pre) = Z.of_nat (length (map snd pre))) by now rewrite map_length.
    assert (GP : pyget (map fst pre ++ p :: map fst suf) (Z.of_nat (length pre)) = Ok p) by (rewrite LP; apply pyget_pre).
    assert (GC : pyget (map snd pre ++ c :: map snd suf) (Z.of_nat (length pre)) = Ok c) by (rewrite LC; apply pyget_pre).
    rewrite GP. cbn [bind]. rewrite link_row_ok by assumption. rewrite GC. cbn [bind]. rewrite corr_row_ok by assumption.
    assert (E : Z.of_nat (length pre) + 1 = Z.of_nat (length (pre ++ [(p, c)]))) by (rewrite app_length; cbn; lia).
    assert (E2 : Z.of_nat (length pre + length ((p, c) :: suf)) = Z.of_nat (length (pre ++ [(p, c)]) + length suf)) by (rewrite app_length; cbn; lia).
    assert (EP : map fst pre ++ p :: map fst suf = map fst ((pre ++ [(p, c)]) ++ suf)) by (rewrite !map_app; cbn; now rewrite <- app_assoc).
    assert (EC : map snd pre ++ c :: map snd suf = map snd ((pre ++ [(p, c)]) ++ suf)) by (rewrite !map_app; cbn; now rewrite <- app_assoc).
    assert (FA : forall u a l, (u ++ line a) ++ file_of l = u ++ file_of (a :: l)) by (intros; unfold file_of; cbn [flat_map]; now rewrite <- app_assoc).
    rewrite E2, EP, EC, E. destruct wp.
    + rewrite prio_row_ok by assumption. rewrite IH, <- E. cbn [crows map fst]. now rewrite !FA.
    + rewrite IH, <- E. cbn [crows map fst]. now rewrite !FA.
Qed.

(** ---- all rows, read ---- *)
Definition back_path (links prios : bool) (p : path_rec) : path_rec :=
  mk_path (map (read_back 3) (pr_x p)) (if links then pr_prev p else PREV_NONE) (if links then pr_next p else NEXT_NONE)
    (if prios then pr_prio p else 4) (repeat fzero (Z.to_nat POSI)) (f_of_Z 1000000) (repeat (-999) (Z.to_nat POSI)) 0.
Fixpoint back_corr (i : Z) (l : list corres) : list corres :=
  match l with [] => [] | c :: r => mk_corres (i + 1) (co_p c) :: back_corr (i + 1) r end.
Lemma read_rows_more (lk pk : bool) el ep m suf i n :
  Forall (fun x => path_ok (fst x) /\ corres_ok (snd x)) suf -> n = (i + length suf + m)%nat ->
  read_path_rows (crows (Z.of_nat i) suf) i n (if lk then Some (map (fun x => ltxt (fst x)) suf ++ el) else None) (if pk then Some (map (fun x => ptxt (fst x)) suf ++ ep) else None)
  = Ok (map Some (back_corr (Z.of_nat i) (map snd suf)) ++ repeat None m, map (back_path lk pk) (map fst suf) ++ repeat new_path m).
Proof.
  intros H. revert i n. induction H as [|[p c] suf [P C] H IH]; intros i n ->.
  - cbn [length crows read_path_rows map back_corr]. replace (i + 0 + m - i)%nat with m by lia. reflexivity.
  - cbn [fst snd] in P, C. cbn [crows map fst snd app]. unfold read_path_rows; fold read_path_rows.
    destruct (Nat.leb_spec (i + length ((p, c) :: suf) + m) i) as [L|_]; [cbn in L; lia|].
    pose proof P as (_ & _ & I1 & I2 & I3). pose proof C as (_ & CI). rewrite (p4 c C) in CI.
    assert (J : int32 (q0 c) /\ int32 (q1 c) /\ int32 (q2 c) /\ int32 (q3 c)) by (repeat match goal with h : Forall _ (_ :: _) |- _ => inversion h; clear h; subst end; auto).
    destruct J as (J0 & J1 & J2 & J3).
    assert (L1 : (match (if lk then Some (ltxt p :: map (fun x => ltxt (fst x)) suf ++ el) else None) with
       | Some k => let '(t, k') := readline k in do a <- pyget (fromstring t) 0; do b <- pyget (fromstring t) 1; Ok (as_int a, as_int b, Some k')
       | None => Ok (PREV_NONE, NEXT_NONE, None) end)
       = Ok (if lk then pr_prev p else PREV_NONE, if lk then pr_next p else NEXT_NONE, if lk then Some (map (fun x => ltxt (fst x)) suf ++ el) else None)).
    { destruct lk; [|reflexivity]. cbn [readline]. rewrite from_ltxt. rewrite <- (as_int_fint (pr_prev p)) at 2 by assumption. rewrite <- (as_int_fint (pr_next p)) at 2 by assumption. reflexivity. }
    assert (L2 : (match (if pk then Some (ptxt p :: map (fun x => ptxt (fst x)) suf ++ ep) else None) with
       | Some k => let '(t, k') := readline k in do a <- pyget (fromstring t) (-1); Ok (as_int a, Some k')
       | None => Ok (4, None) end)
       = Ok (if pk then pr_prio p else 4, if pk then Some (map (fun x => ptxt (fst x)) suf ++ ep) else None)).
    { destruct pk; [|reflexivity]. cbn [readline]. rewrite from_ptxt. rewrite <- (as_int_fint (pr_prio p)) at 2 by assumption. reflexivity. }
    rewrite L1. cbn [bind]. rewrite L2. cbn [bind]. rewrite from_ctxt. unfold last4, mid. cbn [length Nat.sub skipn firstn map assign4].
    rewrite !as_int_fint, !wrap32_id by (assumption || now apply int32_exact). cbn [bind].
    replace (Z.of_nat i + 1) with (Z.of_nat (S i)) by lia. rewrite (IH (S i)) by (cbn [length]; lia). cbn [bind back_corr map app].
    rewrite (p4 c C). unfold back_path. rewrite (x3 p P). cbn [map]. replace (Z.of_nat (S i)) with (Z.of_nat i + 1) at 1 by lia. replace (Z.of_nat i + 1) with (Z.of_nat (S i)) by lia. reflexivity.
Qed.
Lemma read_rows_ok (lk pk : bool) suf i n :
  Forall (fun x => path_ok (fst x) /\ corres_ok (snd x)) suf -> n = (i + length suf)%nat ->
  read_path_rows (crows (Z.of_nat i) suf) i n (if lk then Some (map (fun x => ltxt (fst x)) suf) else None) (if pk then Some (map (fun x => ptxt (fst x)) suf) else None)
  = Ok (map Some (back_corr (Z.of_nat i) (map snd suf)), map (back_path lk pk) (map fst suf)).
Proof.
  intros H ->. pose proof (read_rows_more lk pk [] [] 0 suf i (i + length suf) H ltac:(lia)) as E. cbn [repeat] in E. rewrite !app_nil_r in E. exact E.
Qed.
