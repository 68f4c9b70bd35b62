(** Property C28, continued: which files read_targets accepts. *)
From Coq Require Import Lia.
From Verif Require Import F64 Model_text Proof_text Model_corr Model_track Model_io Spec_io Proof_io Base.
Local Open Scope Z_scope.

(** a line with the eight numbers of a target: two of them decimal, the others whole *)
Definition target_line (l : text) (t : target) : Prop := exists a b c d e f g h, words (strip l) = [a; b; c; d; e; f; g; h] /\
  parse_int a = Ok (t_pnr t) /\ parse_float b = Ok (t_x t) /\ parse_float c = Ok (t_y t) /\ parse_int d = Ok (t_n t) /\
  parse_int e = Ok (t_nx t) /\ parse_int f = Ok (t_ny t) /\ parse_int g = Ok (t_sumg t) /\ parse_int h = Ok (t_tnr t).
Lemma parse_int_exn a e : parse_int a = Exn e -> e = ValueError.
Proof. unfold parse_int. destruct (take_sign (strip a)) as (neg, t). destruct (span_digits t) as ([|d ds], [|c r]); try discriminate; congruence. Qed.
Lemma parse_float_exn a e : parse_float a = Exn e -> e = ValueError.
Proof.
  unfold parse_float. destruct (take_sign (strip a)) as (neg, t). destruct (teqb t (txt "nan")); [discriminate|]. destruct (teqb t (txt "inf")); [discriminate|].
  destruct (span_digits t) as (ip, rest). destruct (match rest with [] => ([], []) | c :: r => if aeqb c "." then span_digits r else ([], rest) end) as (fp, rest2).
  destruct (ip ++ fp); [congruence|]. destruct (parse_exp rest2); [discriminate|congruence].
Qed.
Lemma parse_target_ok l t : parse_target l = Ok t <-> target_line l t.
Proof.
  unfold parse_target, target_line. split.
  - destruct (words (strip l)) as [|a [|b [|c [|d [|e [|f [|g [|h [|i w]]]]]]]]]; try discriminate. intros E. exists a, b, c, d, e, f, g, h. split; [reflexivity|].
    repeat match goal with [ E : bind ?r _ = Ok _ |- _ ] => destruct r; [|discriminate E]; cbn [bind] in E end. injection E as <-. cbn. auto 10.
  - intros (a & b & c & d & e & f & g & h & -> & Pa & Pb & Pc & Pd & Pe & Pf & Pg & Ph). rewrite Pa, Pb, Pc, Pd, Pe, Pf, Pg, Ph. cbn [bind]. destruct t; reflexivity.
Qed.
Lemma parse_target_exn l e : parse_target l = Exn e -> e = ValueError.
Proof.
  unfold parse_target. destruct (words (strip l)) as [|a [|b [|c [|d [|x [|f [|g [|h [|i w]]]]]]]]]; try congruence. intros E.
  repeat match goal with [ E : bind ?r _ = Exn _ |- _ ] => let R := fresh "R" in destruct r eqn:R; cbn [bind] in E; [|injection E as ->; (exact (parse_int_exn _ _ R) || exact (parse_float_exn _ _ R))] end. discriminate.
Qed.
Lemma no_target_line t : ~ target_line [] t.
Proof. intros (a & b & c & d & e & f & g & h & W & _). cbv in W. discriminate. Qed.
Lemma read_rows_ok k : forall ls ts, read_rows k ls = Ok ts <-> (length ts = k /\ (k <= length ls)%nat /\ Forall2 target_line (firstn k ls) ts).
Proof.
  induction k as [|k IH]; intros ls ts; cbn [read_rows].
  - cbn [firstn]. split; [intros [= <-]; split; [|split]; [reflexivity|lia|constructor]|]. intros (_ & _ & F). inversion F. reflexivity.
  - destruct ls as [|l ls]; cbn [readline firstn].
    + split; [|intros (_ & N & _); cbn in N; lia]. destruct (parse_target []) as [t|] eqn:P; [|discriminate]. apply parse_target_ok in P. now apply no_target_line in P.
    + split.
      * destruct (parse_target l) as [t|] eqn:P; [|discriminate]. cbn [bind]. destruct (read_rows k ls) as [r|] eqn:R; [|discriminate]. cbn [bind]. intros [= <-].
        apply IH in R as (L & N & F). apply parse_target_ok in P. cbn [length]. repeat split; try lia. now constructor.
      * intros (L & N & F). inversion F as [|? t ? r P F']; subst. apply parse_target_ok in P. rewrite P. cbn [bind].
        assert (R : read_rows k ls = Ok r) by (apply IH; cbn [length] in *; repeat split; [lia|lia|exact F']). now rewrite R.
Qed.
Lemma read_rows_exn k : forall ls e, read_rows k ls = Exn e -> e = ValueError.
Proof.
  induction k as [|k IH]; intros ls e; cbn [read_rows]; [discriminate|]. destruct (readline ls) as (l, rest). destruct (parse_target l) eqn:P; cbn [bind].
  - destruct (read_rows k rest) eqn:R; cbn [bind]; [discriminate|]. intros [= <-]. eauto.
  - intros [= <-]. eapply parse_target_exn; eauto.
Qed.

(** An existing target file is read exactly if its first line is a number and as many lines as it says follow, each with the eight
    numbers of a target; these are the targets, and whatever follows is ignored.  Every other file raises ValueError. *)
Theorem C28_accepted : forall fs base n name t, read_name base n = Ok name -> fs name = Some t ->
  (forall ts, read_targets fs base n = Ok ts <->
     exists first rows num, lines t = first :: rows /\ parse_int (strip first) = Ok num /\ Z.max 0 num <= Z.of_nat (length rows) /\
       Forall2 target_line (firstn (Z.to_nat num) rows) ts) /\
  (forall e, read_targets fs base n = Exn e -> e = ValueError).
Proof.
  intros fs base n name t RN F. unfold read_targets. rewrite RN. cbn [bind]. rewrite F. split.
  - intros ts. destruct (lines t) as [|first rows]; cbn [readline].
    + split; [cbv; discriminate|]. intros (? & ? & ? & [=] & _).
    + split.
      * destruct (parse_int (strip first)) as [num|] eqn:P; [|discriminate]. cbn [bind]. intros R. apply read_rows_ok in R as (L & N & FF).
        exists first, rows, num. repeat split; auto. lia.
      * intros (f & r & num & [= <- <-] & P & N & FF). rewrite P. cbn [bind]. apply read_rows_ok. split; [|split; [lia|exact FF]].
        assert (LL : length (firstn (Z.to_nat num) rows) = length ts) by (clear - FF; induction FF; cbn [length]; congruence).
        rewrite <- LL. apply firstn_length_le. lia.
  - intros e. destruct (readline (lines t)) as (l, rest). destruct (parse_int (strip l)) eqn:P; cbn [bind].
    + apply read_rows_exn.
    + intros [= <-]. eapply parse_int_exn; eauto.
Qed.
Print Assumptions C28_accepted.

(** ---- non-vacuity: a file with one target is read, one that promises two is refused, as is a line with seven numbers ---- *)
Definition only (t : text) : files := fun _ => Some t.
Definition one_line : text := txt "   0  123.4500   -7.5000    12     3     4   500    -1
".
Example C28_accepted_case :
  (exists ts, read_targets (only (txt "1
" ++ one_line ++ txt "rest")) (txt "cam%d") 7 = Ok ts /\ length ts = 1%nat) /\
  read_targets (only (txt "2
" ++ one_line)) (txt "cam%d") 7 = Exn ValueError /\
  read_targets (only (txt "1
0 1 2 3 4 5 6
")) (txt "cam%d") 7 = Exn ValueError.
Proof. split; [|split]; [eexists; split; [vm_compute; reflexivity|reflexivity]|vm_compute; reflexivity|vm_compute; reflexivity]. Qed.
