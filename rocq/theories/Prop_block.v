(** C64: calibration block and manual orientation files. *)
From Verif Require Import F64 Model_text Model_corr Model_track Model_io Model_par Model_block Proof_block Lib Base.
Local Open Scope Z_scope.

(** Line k + 1 of the file gives point k (its second, third and fourth word); the stated number of points is
    returned; points without a line are silently (0, 0, 0). *)
Theorem C64_block : forall fs name f n, read_calblock fs name = Ok (f, n) -> exists t first rows, fs name = Some t /\ lines t = first :: rows /\
  parse_int first = Ok n /\ 0 <= n /\ Z.of_nat (length f) = n /\ Z.of_nat (length rows) <= n /\
  (forall k l, nth_error rows k = Some l -> exists a b c p q r, nth_error (words l) 1 = Some a /\ nth_error (words l) 2 = Some b /\ nth_error (words l) 3 = Some c /\
     parse_float a = Ok p /\ parse_float b = Ok q /\ parse_float c = Ok r /\ nth_error f k = Some (p, q, r)) /\
  (forall k, (length rows <= k < Z.to_nat n)%nat -> nth_error f k = Some (fzero, fzero, fzero)).
Proof.
  intros fs name f n E. pose proof (read_block_len _ _ _ _ E) as (N0 & N1). unfold read_calblock in E. destruct (fs name) as [t|]; [|discriminate].
  destruct (lines t) as [|l rows] eqn:EL; [discriminate|]. exists t, l, rows. split; [reflexivity|]. split; [exact EL|].
  destruct (parse_int l) as [m|] eqn:P; [|discriminate]. cbn [bind] in E. destruct (Z.ltb_spec m 0); [discriminate|].
  destruct (fill _ 0 rows) as [g|] eqn:F; [|discriminate]. cbn [bind] in E. injection E as <- <-. apply fill_ok in F; [|lia]. destruct F as (L & B & R & K). rewrite repeat_length in *.
  split; [reflexivity|]. split; [lia|]. split; [lia|]. split; [lia|]. cbn [Z.to_nat plus] in R, K. split.
  - intros k w W. destruct (R k w W) as (p & PP & NN). unfold parse_point, word in PP.
    destruct (nth_error (words w) 1) as [a|]; [|discriminate]. cbn [bind] in PP. destruct (parse_float a) as [x|] eqn:PA; [|discriminate]. cbn [bind] in PP.
    destruct (nth_error (words w) 2) as [b|]; [|discriminate]. cbn [bind] in PP. destruct (parse_float b) as [y|] eqn:PB; [|discriminate]. cbn [bind] in PP.
    destruct (nth_error (words w) 3) as [c|]; [|discriminate]. cbn [bind] in PP. destruct (parse_float c) as [z|] eqn:PC; [|discriminate]. cbn [bind] in PP. injection PP as <-.
    exists a, b, c, x, y, z. auto 10.
  - intros k Hk. rewrite K by lia. apply nth_error_repeat. lia.
Qed.
Print Assumptions C64_block.
(** more lines than the first line says: IndexError (an empty last line, too) *)
Theorem C64_long_refuted : forall fs name t first rows n, fs name = Some t -> lines t = first :: rows -> parse_int first = Ok n -> 0 <= n < Z.of_nat (length rows) ->
  Forall (fun l => exists p, parse_point l = Ok p) rows -> read_calblock fs name = Exn IndexError.
Proof.
  intros fs name t first rows n E EL P H F. unfold read_calblock. rewrite E, EL, P. cbn [bind]. destruct (Z.ltb_spec n 0); [lia|].
  rewrite fill_long; [reflexivity|rewrite repeat_length; lia|rewrite repeat_length; lia|exact F].
Qed.
Print Assumptions C64_long_refuted.
Theorem C64_blank_refuted : forall fs name t first rows l n, fs name = Some t -> lines t = first :: rows ++ [l] -> words l = [] -> parse_int first = Ok n -> Z.of_nat (length rows) <= n ->
  Forall (fun l => exists p, parse_point l = Ok p) rows -> read_calblock fs name = Exn IndexError.
Proof.
  intros fs name t first rows l n E EL W P H F. unfold read_calblock. rewrite E, EL, P. cbn [bind]. destruct (Z.ltb_spec n 0); [lia|].
  assert (Q : forall rs f i, Forall (fun l => exists p, parse_point l = Ok p) rs -> 0 <= i -> i + Z.of_nat (length rs) <= Z.of_nat (length f) -> fill f i (rs ++ [l]) = Exn IndexError).
  { induction rs as [|r rs IH]; intros f i F' Hi B; cbn [app fill]; [unfold parse_point, word; rewrite W; reflexivity|]. apply Forall_cons_iff in F'. destruct F' as ((p & ->) & F'). cbn [bind length] in *.
    rewrite pyset_in_range by lia. cbn [bind]. apply IH; [exact F'|lia|rewrite upd_length; lia]. }
  rewrite Q; [reflexivity|exact F|lia|rewrite repeat_length; lia].
Qed.
Print Assumptions C64_blank_refuted.
(** The four points of a camera: those whose numbers stand in its line of the manual orientation file, in that
    order, exactly when the numbers are different and all belong to the block; otherwise None. *)
Lemma skip_nth k ls l : nth_error ls k = Some l -> fst (readline (skip_lines k ls)) = l.
Proof. revert ls. induction k as [|k IH]; intros [|x ls] H; try discriminate; cbn in *; [congruence|]. apply IH. exact H. Qed.
Lemma numbers_line fs man cam t l nr : fs man = Some t -> 0 <= cam -> nth_error (lines t) (Z.to_nat cam) = Some l ->
  Forall2 (fun w v => parse_int w = Ok v) (words l) nr -> numbers_of fs man cam = Ok nr.
Proof.
  intros F H0 L N. unfold numbers_of. rewrite F, (skip_nth _ _ _ L). revert nr N. induction (words l) as [|w ws IH]; intros nr N; inversion N; subst; [reflexivity|].
  match goal with H : parse_int w = _ |- _ => rewrite H end. cbn [bind]. rewrite (IH l'); auto.
Qed.
Theorem C64_manual : forall fs block man t cam l a b c d rest f n, fs man = Some t -> 0 <= cam -> nth_error (lines t) (Z.to_nat cam) = Some l ->
  Forall2 (fun w v => parse_int w = Ok v) (words l) (a :: b :: c :: d :: rest) -> read_calblock fs block = Ok (f, n) -> 4 <= n ->
  exists r, read_man_ori_fix fs block man cam = Ok r /\
  ((r <> None <-> NoDup [a; b; c; d] /\ Forall (fun v => 1 <= v <= n) [a; b; c; d]) /\
   (forall p, r = Some p -> length p = 4%nat /\ forall i v, nth_error [a; b; c; d] i = Some v -> nth_error p i = nth_error f (Z.to_nat (v - 1)))).
Proof.
  intros fs block man t cam ln a b c d rest f n F H0 LL FF R L. pose proof (numbers_line _ _ _ _ _ _ F H0 LL FF) as N.
 rewrite (man_ori _ _ _ _ _ _ _ _ _ _ _ N R L). eexists. split; [reflexivity|]. rewrite <- cnt_4.
  destruct (Z.eqb_spec (cnt a b c d n) 4) as [E|E]; [|split; [split; [congruence|intros Q; contradiction]|intros p Q; discriminate]].
  split; [split; [auto|congruence]|]. intros p Q. injection Q as <-. rewrite (four_all f _ _ _ _ _ E). split; [reflexivity|]. intros i v V. rewrite nth_error_map, V. cbn [option_map].
  apply cnt_4 in E. destruct E as (_ & FA). rewrite Forall_forall in FA. apply nth_error_In in V. apply FA in V. pose proof (read_block_len _ _ _ _ R) as (_ & Ln).
  symmetry. apply nth_error_nth'. lia.
Qed.
Print Assumptions C64_manual.
Theorem C64_few_points : forall fs block man t cam l nr f n, fs man = Some t -> 0 <= cam -> nth_error (lines t) (Z.to_nat cam) = Some l ->
  Forall2 (fun w v => parse_int w = Ok v) (words l) nr -> read_calblock fs block = Ok (f, n) -> n < 4 -> read_man_ori_fix fs block man cam = Ok None.
Proof. intros fs block man t cam l nr f n F H0 LL FF R L. pose proof (numbers_line _ _ _ _ _ _ F H0 LL FF) as N. unfold read_man_ori_fix. rewrite N, R. cbn [bind]. destruct (Z.ltb_spec n 4); [reflexivity|lia]. Qed.
Print Assumptions C64_few_points.
(** a block of four points with one line missing, and a camera that asks for points 4 3 2 1 *)
Definition demo : files := fun n => if teqb n (txt "b") then Some (line (txt "4") ++ line (txt "1 10 0 0") ++ line (txt "7 20 0 0") ++ line (txt "3 30 0 1.5")) else
  if teqb n (txt "m") then Some (line (txt "1 1 1 1") ++ line (txt "4 3 2 1")) else None.
Example C64_example : read_calblock demo (txt "b") = Ok ([(f_of_Z 10, fzero, fzero); (f_of_Z 20, fzero, fzero); (f_of_Z 30, fzero, f_of_dec false 15 1); no_point], 4) /\
  read_man_ori_fix demo (txt "b") (txt "m") 1 = Ok (Some [no_point; (f_of_Z 30, fzero, f_of_dec false 15 1); (f_of_Z 20, fzero, fzero); (f_of_Z 10, fzero, fzero)]) /\
  read_man_ori_fix demo (txt "b") (txt "m") 0 = Ok None.
Proof. vm_compute. repeat split. Qed.
