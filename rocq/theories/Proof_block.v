From Verif Require Import F64 Model_text Model_corr Model_track Model_io Model_par Model_block Lib Base.
Local Open Scope Z_scope.

(** ---- the block ---- *)
Lemma fill_ok : forall ls f i g, 0 <= i -> fill f i ls = Ok g ->
  length g = length f /\ i + Z.of_nat (length ls) <= Z.max i (Z.of_nat (length f)) /\
  (forall k l, nth_error ls k = Some l -> exists p, parse_point l = Ok p /\ nth_error g (Z.to_nat i + k) = Some p) /\
  (forall k, (k < Z.to_nat i \/ Z.to_nat i + length ls <= k)%nat -> nth_error g k = nth_error f k).
Proof.
  induction ls as [|l r IH]; intros f i g Hi E; cbn [fill] in E.
  { injection E as <-. cbn. split; [reflexivity|]. split; [lia|]. split; [|reflexivity]. intros k l H. destruct k; discriminate. }
  destruct (parse_point l) as [p|] eqn:P; [|discriminate]. cbn [bind] in E. destruct (pyset f i p) as [f'|] eqn:S; [|discriminate]. cbn [bind] in E.
  apply pyset_ok in S; [|exact Hi]. destruct S as (L & ->). apply IH in E; [|lia]. destruct E as (L' & B & R & K). rewrite upd_length in *.
  split; [exact L'|]. split; [cbn [length]; lia|]. replace (Z.to_nat (i + 1)) with (S (Z.to_nat i)) in * by lia. split.
  - intros k l' H. destruct k as [|k].
    + cbn in H. injection H as <-. exists p. split; [exact P|]. rewrite Nat.add_0_r, K by lia. now apply nth_error_upd_eq.
    + cbn in H. destruct (R k l' H) as (q & Q & N). exists q. split; [exact Q|]. rewrite <- N. f_equal. lia.
  - intros k H. cbn [length] in H. rewrite K by lia. apply nth_error_upd_neq. lia.
Qed.
Lemma fill_long : forall ls f i, 0 <= i <= Z.of_nat (length f) -> Z.of_nat (length f) < i + Z.of_nat (length ls) -> Forall (fun l => exists p, parse_point l = Ok p) ls -> fill f i ls = Exn IndexError.
Proof.
  induction ls as [|l r IH]; intros f i Hi H F; cbn [length] in H; [lia|]. apply Forall_cons_iff in F. destruct F as ((p & P) & F). cbn [fill]. rewrite P. cbn [bind].
  destruct (Z.eq_dec i (Z.of_nat (length f))) as [->|N].
  - unfold pyset, pyidx. destruct (Z.leb_spec 0 (Z.of_nat (length f))), (Z.ltb_spec (Z.of_nat (length f)) (Z.of_nat (length f))); cbn [andb]; try lia.
    destruct (Z.leb_spec (- Z.of_nat (length f)) (Z.of_nat (length f))), (Z.ltb_spec (Z.of_nat (length f)) 0); cbn [andb]; try lia; reflexivity.
  - rewrite pyset_in_range by lia. cbn [bind]. apply IH; [rewrite upd_length; lia|rewrite upd_length; lia|exact F].
Qed.

(** ---- the four points ---- *)
Definition got (k n : Z) (e : bool) : bool := (1 <=? n) && (n <=? k) && negb e.
Definition sel (f : list point) (k n : Z) (e : bool) : point := if got k n e then nth (Z.to_nat (n - 1)) f no_point else no_point.
Definition ind (k n : Z) (e : bool) : Z := if got k n e then 1 else 0.
Lemma got_other k n e : n <> k + 1 -> got (k + 1) n e = got k n e.
Proof. intros H. unfold got. f_equal. f_equal. destruct (Z.leb_spec n (k + 1)), (Z.leb_spec n k); lia. Qed.
Lemma got_true k n : got k n true = false. Proof. unfold got. now rewrite andb_false_r. Qed.
Lemma got_new k : 0 <= k -> got (k + 1) (k + 1) false = true. Proof. intros. unfold got. apply andb_true_iff; split; [apply andb_true_iff; split; apply Z.leb_le; lia|reflexivity]. Qed.
Lemma got_old k n e : n = k + 1 -> got k n e = false. Proof. intros. unfold got. destruct (Z.leb_spec n k); [lia|]. now rewrite andb_false_r. Qed.
Section M.
Variables (f : list point) (a b c d : Z) (rest : list Z).
Definition eb := b =? a. Definition ec := (c =? a) || (c =? b). Definition ed := (d =? a) || (d =? b) || (d =? c).
Definition four (k : Z) : list point := [sel f k a false; sel f k b eb; sel f k c ec; sel f k d ed].
Definition cnt (k : Z) : Z := ind k a false + ind k b eb + ind k c ec + ind k d ed.
Notation nr := (a :: b :: c :: d :: rest).
Lemma find_eq pnr : find_nr 4 nr 0 pnr = Ok (if pnr =? a - 1 then Some 0 else if pnr =? b - 1 then Some 1 else if pnr =? c - 1 then Some 2 else if pnr =? d - 1 then Some 3 else None).
Proof.
  cbn [find_nr]. rewrite (pyget_nonneg nr 0 a) by (lia || reflexivity). cbn [bind]. destruct (pnr =? a - 1); [reflexivity|].
  rewrite (pyget_nonneg nr (0 + 1) b) by (lia || reflexivity). cbn [bind]. destruct (pnr =? b - 1); [reflexivity|].
  rewrite (pyget_nonneg nr (0 + 1 + 1) c) by (lia || reflexivity). cbn [bind]. destruct (pnr =? c - 1); [reflexivity|].
  rewrite (pyget_nonneg nr (0 + 1 + 1 + 1) d) by (lia || reflexivity). cbn [bind]. destruct (pnr =? d - 1); reflexivity.
Qed.
Lemma sel_same k n e : got (k + 1) n e = got k n e -> sel f (k + 1) n e = sel f k n e /\ ind (k + 1) n e = ind k n e.
Proof. intros H. unfold sel, ind. now rewrite H. Qed.
Lemma keep_ k n e : n <> k + 1 \/ e = true -> sel f (k + 1) n e = sel f k n e /\ ind (k + 1) n e = ind k n e.
Proof. intros [H| ->]; apply sel_same; [now apply got_other|now rewrite !got_true]. Qed.
Lemma new_ k n e : 0 <= k -> n = k + 1 -> e = false -> sel f (k + 1) n e = nth (Z.to_nat k) f no_point /\ ind (k + 1) n e = 1 /\ ind k n e = 0.
Proof. intros H -> ->. unfold sel, ind. rewrite got_new by assumption. rewrite got_old by reflexivity. replace (k + 1 - 1) with k by lia. auto. Qed.
Lemma step_eq k : 0 <= k < Z.of_nat (length f) ->
  (do q <- find_nr 4 nr 0 k; match q with Some i => do p <- pyget f k; do f4 <- pyset (four k) i p; Ok (f4, cnt k + 1) | None => Ok (four k, cnt k) end) = Ok (four (k + 1), cnt (k + 1)) /\ cnt (k + 1) <= cnt k + 1.
Proof.
  intros Hk. rewrite find_eq. cbn [bind]. destruct (pyget_in_range f k Hk) as (p & -> & N). cbn [bind]. apply nth_error_nth with (d := no_point) in N.
  destruct (Z.eqb_spec k (a - 1)) as [A|A].
  { destruct (new_ k a false) as (Sa & Ia & Ia'); try lia.
    destruct (keep_ k b eb) as (Sb & Ib); [unfold eb; destruct (Z.eqb_spec b a); [now right|left; lia]|].
    destruct (keep_ k c ec) as (Sc & Ic); [unfold ec; destruct (Z.eqb_spec c a); [now right|left; lia]|].
    destruct (keep_ k d ed) as (Sd & Id); [unfold ed; destruct (Z.eqb_spec d a); [now right|left; lia]|].
    rewrite pyset_in_range by (cbn; lia). cbn [bind]. unfold four, cnt. rewrite Sa, Sb, Sc, Sd, Ia, Ia', Ib, Ic, Id, N. split; [|lia]. cbn [Z.to_nat upd]. f_equal. f_equal. lia. }
  destruct (keep_ k a false) as (Sa & Ia); [left; lia|].
  destruct (Z.eqb_spec k (b - 1)) as [B|B].
  { destruct (new_ k b eb) as (Sb & Ib & Ib'); [lia|lia|unfold eb; apply Z.eqb_neq; lia|].
    destruct (keep_ k c ec) as (Sc & Ic); [unfold ec; destruct (Z.eqb_spec c b); [right; apply orb_true_r|left; lia]|].
    destruct (keep_ k d ed) as (Sd & Id); [unfold ed; destruct (Z.eqb_spec d b); [right; rewrite orb_true_r; reflexivity|left; lia]|].
    rewrite pyset_in_range by (cbn; lia). cbn [bind]. unfold four, cnt. rewrite Sa, Sb, Sc, Sd, Ia, Ib, Ib', Ic, Id, N. split; [|lia]. change (Z.to_nat 1) with 1%nat. cbn [upd]. f_equal. f_equal. lia. }
  destruct (keep_ k b eb) as (Sb & Ib); [left; lia|].
  destruct (Z.eqb_spec k (c - 1)) as [C|C].
  { destruct (new_ k c ec) as (Sc & Ic & Ic'); [lia|lia|unfold ec; apply orb_false_iff; split; apply Z.eqb_neq; lia|].
    destruct (keep_ k d ed) as (Sd & Id); [unfold ed; destruct (Z.eqb_spec d c); [right; apply orb_true_r|left; lia]|].
    rewrite pyset_in_range by (cbn; lia). cbn [bind]. unfold four, cnt. rewrite Sa, Sb, Sc, Sd, Ia, Ib, Ic, Ic', Id, N. split; [|lia]. change (Z.to_nat 2) with 2%nat. cbn [upd]. f_equal. f_equal. lia. }
  destruct (keep_ k c ec) as (Sc & Ic); [left; lia|].
  destruct (Z.eqb_spec k (d - 1)) as [D|D].
  { destruct (new_ k d ed) as (Sd & Id & Id'); [lia|lia|unfold ed; rewrite !orb_false_iff; split; [split|]; apply Z.eqb_neq; lia|].
    rewrite pyset_in_range by (cbn; lia). cbn [bind]. unfold four, cnt. rewrite Sa, Sb, Sc, Sd, Ia, Ib, Ic, Id, Id', N. split; [|lia]. change (Z.to_nat 3) with 3%nat. cbn [upd]. f_equal. f_equal. lia. }
  destruct (keep_ k d ed) as (Sd & Id); [left; lia|]. unfold four, cnt. rewrite Sa, Sb, Sc, Sd, Ia, Ib, Ic, Id. split; [reflexivity|lia].
Qed.
Lemma match_loop_eq n : n = Z.of_nat (length f) -> forall j k, 0 <= k -> n = k + Z.of_nat j -> cnt k <= k ->
  match_loop f nr n (zrange k n) (four k) (cnt k) = Ok (four n, cnt n).
Proof.
  intros Hn. induction j as [|j IH]; intros k Hk E C.
  { replace n with k by lia. rewrite zrange_empty by lia. reflexivity. }
  rewrite zrange_cons by lia. cbn [match_loop]. destruct (step_eq k) as (S & L); [lia|].
  destruct (find_nr 4 nr 0 k) as [q|]; [|discriminate]. cbn [bind] in S |- *. rewrite S. cbn [bind fst snd].
  destruct (Z.geb_spec (cnt (k + 1)) n).
  - assert (k + 1 = n) as -> by lia. reflexivity.
  - apply IH; lia.
Qed.
Lemma four_0 : four 0 = repeat no_point 4 /\ cnt 0 = 0.
Proof.
  assert (G : forall n e, got 0 n e = false) by (intros n e; unfold got; destruct (Z.leb_spec 1 n), (Z.leb_spec n 0); try lia; reflexivity).
  unfold four, cnt, sel, ind. rewrite !G. split; reflexivity.
Qed.
Lemma cnt_4 n : cnt n = 4 <-> NoDup [a; b; c; d] /\ Forall (fun v => 1 <= v <= n) [a; b; c; d].
Proof.
  assert (I : forall v e, ind n v e = 1 /\ 1 <= v <= n /\ e = false \/ ind n v e = 0 /\ ~ (1 <= v <= n /\ e = false)).
  { intros v e. unfold ind, got. destruct (Z.leb_spec 1 v), (Z.leb_spec v n), e; cbn [andb negb]; intuition (lia || discriminate). }
  unfold cnt. destruct (I a false) as [(-> & A & _)|(-> & A)], (I b eb) as [(-> & B & B')|(-> & B)], (I c ec) as [(-> & C & C')|(-> & C)], (I d ed) as [(-> & D & D')|(-> & D)];
    (split; [intros Q; try lia|intros (ND & F)]).
  { unfold eb in B'. unfold ec in C'. unfold ed in D'. rewrite !orb_false_iff in *. rewrite !Z.eqb_neq in *. split.
    - constructor; [cbn; lia|]. constructor; [cbn; lia|]. constructor; [cbn; lia|]. constructor; [cbn; lia|constructor].
    - repeat (apply Forall_cons; [lia|]). apply Forall_nil. }
  { reflexivity. }
  all: exfalso; inversion_clear ND as [|? ? N1 ND1]; inversion_clear ND1 as [|? ? N2 ND2]; inversion_clear ND2 as [|? ? N3 ND3]; cbn [In] in N1, N2, N3;
    apply Forall_cons_iff in F; destruct F as (F1 & F); apply Forall_cons_iff in F; destruct F as (F2 & F); apply Forall_cons_iff in F; destruct F as (F3 & F); apply Forall_cons_iff in F; destruct F as (F4 & _);
    assert (eb = false) by (unfold eb; apply Z.eqb_neq; lia); assert (ec = false) by (unfold ec; rewrite !orb_false_iff, !Z.eqb_neq; lia); assert (ed = false) by (unfold ed; rewrite !orb_false_iff, !Z.eqb_neq; lia); tauto.
Qed.
Lemma four_all n : cnt n = 4 -> four n = map (fun v => nth (Z.to_nat (v - 1)) f no_point) [a; b; c; d].
Proof.
  intros H. apply cnt_4 in H. destruct H as (ND & F). inversion_clear ND as [|? ? N1 ND1]; inversion_clear ND1 as [|? ? N2 ND2]; inversion_clear ND2 as [|? ? N3 ND3]; cbn [In] in N1, N2, N3.
  apply Forall_cons_iff in F; destruct F as (F1 & F); apply Forall_cons_iff in F; destruct F as (F2 & F); apply Forall_cons_iff in F; destruct F as (F3 & F); apply Forall_cons_iff in F; destruct F as (F4 & _).
  assert (E1 : eb = false) by (unfold eb; apply Z.eqb_neq; lia). assert (E2 : ec = false) by (unfold ec; rewrite !orb_false_iff, !Z.eqb_neq; lia). assert (E3 : ed = false) by (unfold ed; rewrite !orb_false_iff, !Z.eqb_neq; lia).
  assert (G : forall v, 1 <= v <= n -> got n v false = true) by (intros v Hv; unfold got; destruct (Z.leb_spec 1 v), (Z.leb_spec v n); try lia; reflexivity).
  unfold four, sel. rewrite E1, E2, E3, !G by assumption. reflexivity.
Qed.
End M.
Lemma read_block_len fs name f n : read_calblock fs name = Ok (f, n) -> 0 <= n /\ n = Z.of_nat (length f).
Proof.
  unfold read_calblock. destruct (fs name) as [t|]; [|discriminate]. destruct (lines t) as [|l r]; [discriminate|]. destruct (parse_int l) as [m|]; [|discriminate]. cbn [bind].
  destruct (Z.ltb_spec m 0); [discriminate|]. destruct (fill _ 0 r) as [g|] eqn:E; [|discriminate]. cbn [bind]. intros Q. injection Q as <- <-.
  apply fill_ok in E; [|lia]. destruct E as (L & _). rewrite L, repeat_length. lia.
Qed.
Lemma man_ori fs block man cam a b c d rest f n : numbers_of fs man cam = Ok (a :: b :: c :: d :: rest) -> read_calblock fs block = Ok (f, n) -> 4 <= n ->
  read_man_ori_fix fs block man cam = Ok (if (cnt a b c d n =? 4) then Some (four f a b c d n) else None).
Proof.
  intros N R L. unfold read_man_ori_fix. rewrite N, R. cbn [bind]. destruct (Z.ltb_spec n 4); [lia|]. destruct (read_block_len _ _ _ _ R) as (_ & E).
  destruct (four_0 f a b c d) as (F0 & C0). pose proof (match_loop_eq f a b c d rest n E (Z.to_nat n) 0 ltac:(lia) ltac:(lia) ltac:(lia)) as M. rewrite F0, C0 in M. rewrite M. reflexivity.
Qed.
