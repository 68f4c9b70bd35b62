(** Frame buffer and schedules: proofs. *)
From Verif Require Import Base Lib Model_fb Spec_fb.
Local Open Scope Z_scope.

(** ---- rotations ---- *)
Lemma next_prev {A} (b : list A) : fb_prev (fb_next b) = b.
Proof. destruct b as [|x t]; auto. unfold fb_next, fb_prev. rewrite rev_app_distr. simpl. now rewrite rev_involutive. Qed.
Lemma prev_next {A} (b : list A) : fb_next (fb_prev b) = b.
Proof.
  unfold fb_prev. destruct (rev b) as [|x t] eqn:E; [apply (f_equal (@rev A)) in E; rewrite rev_involutive in E; subst; auto|].
  unfold fb_next. apply (f_equal (@rev A)) in E. rewrite rev_involutive in E. subst. reflexivity.
Qed.
Lemma next_nth {A} (b : list A) i x : nth_error (fb_next b) i = Some x <->
  (exists n, n = length b /\ (i < n)%nat /\ nth_error b ((i + 1) mod n) = Some x).
Proof.
  destruct b as [|y t]; simpl.
  - split; [destruct i; discriminate|]. intros (n & -> & H & _). lia.
  - destruct (Nat.lt_trichotomy i (length t)) as [H|[H|H]].
    + rewrite nth_error_app1 by auto. split.
      * intros E. exists (S (length t)). split; auto. split; [lia|]. rewrite Nat.mod_small by lia. rewrite Nat.add_1_r. exact E.
      * intros (n & -> & _ & E). rewrite Nat.mod_small in E by lia. rewrite Nat.add_1_r in E. exact E.
    + subst i. rewrite nth_error_app2, Nat.sub_diag by lia. split.
      * intros E. exists (S (length t)). split; auto. split; [lia|]. rewrite Nat.add_1_r, Nat.mod_same by lia. exact E.
      * intros (n & -> & _ & E). rewrite Nat.add_1_r, Nat.mod_same in E by lia. exact E.
    + split; [|intros (n & -> & L & _); lia]. intros E. assert (i < length (t ++ [y]))%nat by (apply nth_error_Some; congruence).
      rewrite app_length in *. simpl in *. lia.
Qed.

(** ---- ring as queue ---- *)
Section RingProof.
Context {A : Type}.
Definition ring_ok (r : ring A) (q : list A) : Prop :=
  ring_items r q /\ (length q <= length (r_buf r))%nat /\ (length (r_buf r) = O \/ 0 <= r_head r < r_len r).

Lemma ring_step_ok r q o : ring_ok r q ->
  exists r' , ring_step r o = Ok (r', snd (queue_step (length (r_buf r)) q o)) /\
    ring_ok r' (fst (queue_step (length (r_buf r)) q o)) /\ length (r_buf r') = length (r_buf r).
Proof.
  intros ((S & I) & L & H). destruct o as [x|]; cbn [ring_step queue_step].
  - unfold push. cbn [fst snd]. rewrite S. unfold r_len.
    destruct (Nat.ltb_spec (length q) (length (r_buf r))) as [Lt|Ge]; destruct (Z.ltb_spec (Z.of_nat (length q)) (Z.of_nat (length (r_buf r)))); try lia.
    + destruct H as [H|H]; [lia|]. unfold r_len in H.
      set (N := Z.of_nat (length (r_buf r))) in *.
      pose proof (Z.mod_pos_bound (r_head r + Z.of_nat (length q)) N ltac:(lia)) as MB.
      rewrite pyset_in_range by (unfold N in *; lia). cbn [bind fst].
      eexists. split; [reflexivity|]. cbn [r_buf]. split; [|apply upd_length].
      split; [split|].
      * cbn [r_size]. rewrite app_length. simpl. lia.
      * cbn [r_buf r_head]. unfold r_len. cbn [r_buf]. rewrite upd_length. fold N. intros i y Hy.
        assert (Li : (i < length (q ++ [x]))%nat) by (apply nth_error_Some; congruence). rewrite app_length in Li. simpl in Li.
        destruct (Nat.eq_dec i (length q)) as [->|Ni].
        -- rewrite nth_error_app2, Nat.sub_diag in Hy by lia. injection Hy as <-. apply nth_error_upd_eq. unfold N in *; lia.
        -- rewrite nth_error_app1 in Hy by lia. rewrite nth_error_upd_neq.
           ++ specialize (I i y Hy). unfold r_len in I. exact I.
           ++ intros E. assert (EZ : (r_head r + Z.of_nat i) mod N = (r_head r + Z.of_nat (length q)) mod N).
              { pose proof (Z.mod_pos_bound (r_head r + Z.of_nat i) N ltac:(lia)). lia. }
              pose proof (Z.div_mod (r_head r + Z.of_nat i) N ltac:(lia)). pose proof (Z.div_mod (r_head r + Z.of_nat (length q)) N ltac:(lia)).
              assert (Dx : N * ((r_head r + Z.of_nat (length q)) / N - (r_head r + Z.of_nat i) / N) = Z.of_nat (length q) - Z.of_nat i) by lia.
              set (k := (r_head r + Z.of_nat (length q)) / N - (r_head r + Z.of_nat i) / N) in *.
              clearbody k. assert (0 < k) by nia. assert (N <= N * k) by nia. unfold N in *; lia.
      * cbn [r_buf]. split; [rewrite app_length, upd_length; simpl; lia|]. right. unfold r_len. cbn [r_buf r_head]. rewrite upd_length. exact H.
    + cbn [bind fst]. eexists. split; [reflexivity|]. split; auto. split; auto. split; auto.
  - unfold pop. rewrite S. rewrite Z.gtb_ltb. destruct q as [|x q]; cbn [length Z.of_nat].
    + change (0 <? 0) with false. cbn iota. eexists. split; [reflexivity|]. split; auto. split; auto. split; auto.
    + destruct (Z.ltb_spec 0 (Z.of_nat (Datatypes.S (length q)))); [|lia]. simpl in L. destruct H as [H|H]; [lia|]. unfold r_len in *.
      set (N := Z.of_nat (length (r_buf r))) in *.
      assert (G : nth_error (r_buf r) (Z.to_nat (r_head r)) = Some x).
      { specialize (I O x eq_refl). rewrite Z.add_0_r in I. rewrite Z.mod_small in I by (unfold N in *; lia). exact I. }
      rewrite (pyget_nonneg _ _ x) by (auto; lia). cbn [bind fst snd].
      eexists. split; [reflexivity|]. split; [|reflexivity]. split; [split|].
      * cbn [r_size length]. lia.
      * cbn [r_buf r_head]. unfold r_len. cbn [r_buf]. fold N. intros i y Hy. specialize (I (Datatypes.S i) y Hy).
        replace (((r_head r + 1) mod N + Z.of_nat i) mod N) with ((r_head r + Z.of_nat (Datatypes.S i)) mod N); auto.
        rewrite Zplus_mod_idemp_l. f_equal. lia.
      * cbn [r_buf r_head]. split; [lia|]. right. unfold r_len. cbn [r_buf]. fold N. apply Z.mod_pos_bound. lia.
Qed.

Theorem ring_run_ok ops r q : ring_ok r q ->
  exists r', ring_run r ops = Ok (r', snd (queue_run (length (r_buf r)) q ops)) /\
    ring_items r' (fst (queue_run (length (r_buf r)) q ops)) /\ length (r_buf r') = length (r_buf r).
Proof.
  revert r q. induction ops as [|o ops IH]; intros r q H; cbn [ring_run queue_run].
  - exists r. split; auto. split; auto. apply H.
  - destruct (ring_step_ok r q o H) as (r1 & E1 & O1 & L1). rewrite E1. cbn [bind fst snd].
    destruct (queue_step (length (r_buf r)) q o) as [q1 a]. cbn [fst snd] in *.
    destruct (IH r1 q1 O1) as (r2 & E2 & O2 & L2). rewrite L1 in *. rewrite E2. cbn [bind fst snd].
    destruct (queue_run (length (r_buf r)) q1 ops) as [q2 l]. cbn [fst snd] in *. exists r2. auto.
Qed.
Lemma empty_ok (b : list A) : ring_ok (mk_ring b 0 0) [].
Proof.
  split; [split; auto; intros i x H; destruct i; discriminate|]. split; [simpl; lia|].
  unfold r_len. cbn [r_buf r_head]. destruct b; [left; auto|right; simpl; lia].
Qed.
End RingProof.

(** ---- schedules ---- *)
Section SchedProof.
Variables F D : Type.
Variable parse : bool -> D -> result F.
Variable store : F -> D.
Variable fstep : F -> F -> F -> F -> result (F * F * F * Z).
Variable bstep : F -> F -> F -> F -> result (F * F * Z).
Local Notation version := (version F D parse fstep bstep).
Local Notation full_forward := (full_forward F D parse store fstep).
Local Notation trackback_c := (trackback_c F D parse store bstep).
Local Notation forward_history := (forward_history F D parse fstep).
Local Notation backward_history := (backward_history F D parse bstep).
Local Notation trackcorr_c_loop := (trackcorr_c_loop F D parse store fstep).
Local Notation trackback_loop := (trackback_loop F D parse store bstep).

Lemma set_last4 (a b c d f : F) : pyset [a; b; c; d] (-1) f = Ok [a; b; c; f].
Proof. reflexivity. Qed.

Lemma read_next a b c d dk n l st :
  (do st <- read_frame_at_end F D parse ([a; b; c; d], dk) n l; Ok (next F D st)) = Ok st ->
  exists f, parse l (dk n) = Ok f /\ st = ([b; c; f; a], dk).
Proof.
  unfold read_frame_at_end. destruct (parse l (dk n)) as [f|]; cbn [bind]; [|intros H; discriminate H].
  rewrite set_last4. cbn [bind]. intros H. injection H as <-. exists f. auto.
Qed.

Lemma prime_ok first e0 e1 e2 e3 d0 st :
  track_forward_start F D parse first ([e0; e1; e2; e3], d0) = Ok st ->
  exists b c d, st = ([e2; b; c; d], d0) /\ parse false (d0 first) = Ok b /\ parse false (d0 (first + 1)) = Ok c /\
    parse false (d0 (first + 2)) = Ok d.
Proof.
  unfold track_forward_start. rewrite (zrange_cons first) by lia. rewrite (zrange_cons (first + 1)) by lia.
  rewrite (zrange_cons (first + 1 + 1)) by lia. rewrite (zrange_empty (first + 1 + 1 + 1)) by lia.
  replace (first + 1 + 1) with (first + 2) by lia. cbn [foldM].
  intros H. apply bind_ok in H as (st1 & H & E).
  apply bind_ok in H as (s1 & H1 & H). apply read_next in H1 as (b & Eb & ->).
  apply bind_ok in H as (s2 & H2 & H). apply read_next in H2 as (c & Ec & ->).
  apply bind_ok in H as (s3 & H3 & H). apply read_next in H3 as (d & Ed & ->).
  injection H as <-. injection E as <-. exists b, c, d. auto.
Qed.

Lemma fwd_one last a b c d dk nl s st' nl' : trackcorr_c_loop last (([a; b; c; d], dk), nl) s = Ok (st', nl') ->
  exists b' c' d' n d'', fstep a b c d = Ok (b', c', d', n) /\ st' = ([b'; c'; d'; d''], put D dk s (store b')) /\ nl' = nl + n /\
    (if s + 3 <=? last then parse false (put D dk s (store b') (s + 3)) = Ok d'' else d'' = a).
Proof.
  unfold Model_fb.trackcorr_c_loop. intros H. cbn [pyget pyidx nth_error] in H.
  change (pyget [a; b; c; d] 0) with (Ok a) in H. change (pyget [a; b; c; d] 1) with (Ok b) in H.
  change (pyget [a; b; c; d] 2) with (Ok c) in H. change (pyget [a; b; c; d] 3) with (Ok d) in H. cbn [bind] in H.
  destruct (fstep a b c d) as [[[[b' c'] d'] n]|] eqn:Ef; [|discriminate]. cbn [bind] in H.
  change (pyset [a; b; c; d] 1 b') with (Ok [a; b'; c; d]) in H. cbn [bind] in H.
  change (pyset [a; b'; c; d] 2 c') with (Ok [a; b'; c'; d]) in H. cbn [bind] in H.
  change (pyset [a; b'; c'; d] 3 d') with (Ok [a; b'; c'; d']) in H. cbn [bind next fst snd fb_next app] in H.
  change (next F D ([a; b'; c'; d'], dk)) with ([b'; c'; d'; a], dk) in H.
  unfold write_frame_from_start in H. change (pyget [b'; c'; d'; a] 0) with (Ok b') in H. cbn [bind] in H.
  exists b', c', d', n.
  destruct (Z.leb_spec (s + 3) last); destruct (Z.ltb_spec s (last - 2)); try lia.
  - unfold read_frame_at_end in H. destruct (parse false (put D dk s (store b') (s + 3))) as [d''|] eqn:Ep; cbn [bind] in H; [|discriminate H].
     rewrite set_last4 in H. cbn [bind] in H. injection H as <- <-. exists d''. auto.
  - cbn [bind] in H. injection H as <- <-. exists a. auto.
Qed.

Lemma fwd_loop last n : forall s a b c d dk nl st' nl', last - s = Z.of_nat n ->
  foldM (trackcorr_c_loop last) (zrange s last) (([a; b; c; d], dk), nl) = Ok (st', nl') ->
  exists A B C E N, A s = a /\ B s = b /\ C s = c /\ E s = d /\
    (forall k, s <= k < last -> fstep (A k) (B k) (C k) (E k) = Ok (A (k + 1), B (k + 1), C (k + 1), N k) /\
       (if k + 3 <=? last then parse false (dk (k + 3)) = Ok (E (k + 1)) else E (k + 1) = A k)) /\
    fst st' = [A last; B last; C last; E last] /\
    (forall k, snd st' k = if (s <=? k) && (k <? last) then store (A (k + 1)) else dk k) /\
    nl' = nl + total N (zrange s last).
Proof.
  induction n as [|n IH]; intros s a b c d dk nl st' nl' Hn H.
  - assert (s = last) as -> by lia. rewrite zrange_empty in * by lia. injection H as <- <-.
    exists (fun _ => a), (fun _ => b), (fun _ => c), (fun _ => d), (fun _ => 0).
    repeat (split; auto); try lia.
    + intros k. destruct (Z.leb_spec last k); destruct (Z.ltb_spec k last); try lia; auto.
    + cbn. lia.
  - rewrite zrange_cons in * by lia. cbn [foldM] in H. apply bind_ok in H as ([st1 nl1] & H1 & H).
    apply fwd_one in H1 as (b' & c' & d' & m & d'' & Ef & -> & -> & Er).
    apply IH in H as (A & B & C & E & N & A0 & B0 & C0 & E0 & HS & HB & HD & HN); [|lia].
    exists (fun k => if k =? s then a else A k), (fun k => if k =? s then b else B k),
      (fun k => if k =? s then c else C k), (fun k => if k =? s then d else E k), (fun k => if k =? s then m else N k).
    rewrite Z.eqb_refl. split; auto. split; auto. split; auto. split; auto.
    destruct (Z.eqb_spec last s); [lia|]. split; [|split; [auto|split]].
    + intros k Hk. destruct (Z.eqb_spec (k + 1) s); [lia|]. destruct (Z.eqb_spec k s) as [->|Nk].
      * rewrite A0, B0, C0, E0. split; auto. unfold put in Er. destruct (Z.eqb_spec (s + 3) s); [lia|]. exact Er.
      * destruct (HS k ltac:(lia)) as (S1 & S2). split; auto. unfold put in S2. destruct (Z.eqb_spec (k + 3) s); [lia|]. exact S2.
    + intros k. rewrite HD. unfold put. destruct (Z.leb_spec (s + 1) k); destruct (Z.ltb_spec k last); destruct (Z.leb_spec s k); cbn [andb]; try lia.
      * destruct (Z.eqb_spec (k + 1) s); [lia|]. auto.
      * destruct (Z.eqb_spec k s); [lia|]. auto.
      * assert (k = s) as -> by lia. rewrite Z.eqb_refl. destruct (Z.eqb_spec (s + 1) s); [lia|]. now rewrite A0.
      * destruct (Z.eqb_spec k s); [lia|]. auto.
    + rewrite HN. unfold total. cbn [map fold_right]. rewrite Z.eqb_refl.
      assert (MM : forall l, (forall k, In k l -> s < k) -> map (fun k => if k =? s then m else N k) l = map N l).
      { intros l Hl. apply map_ext_in. intros k Hk. specialize (Hl k Hk). destruct (Z.eqb_spec k s); [lia|auto]. }
      rewrite MM; [lia|]. intros k Hk. apply In_zrange in Hk. lia.
Qed.

Theorem forward_ok first last e0 e1 e2 e3 d0 buf d1 nl : first < last ->
  full_forward first last ([e0; e1; e2; e3], d0) = Ok ((buf, d1), nl) ->
  exists A B C E N, A first = e2 /\ forward_history first last d0 A B C E N /\
    (forall s, first <= s < last -> d1 s = store (A (s + 1))) /\ d1 last = store (B last) /\
    (forall s, ~ first <= s <= last -> d1 s = d0 s) /\ nl = total N (zrange first last).
Proof.
  intros Hl H. unfold Model_fb.full_forward in H. apply bind_ok in H as (st0 & H0 & H).
  apply prime_ok in H0 as (b & c & d & -> & Pb & Pc & Pd).
  apply bind_ok in H as ([st1 nl1] & H1 & H). apply bind_ok in H as ([buf2 dk2] & H2 & H). injection H as <- <- <-.
  apply (fwd_loop last (Z.to_nat (last - first))) in H1 as (A & B & C & E & N & A0 & B0 & C0 & E0 & HS & HB & HD & HN); [|lia].
  exists A, B, C, E, N. split; auto. split; [split; [|split; [|split]]; try congruence; auto|].
  destruct st1 as [b1 dk1]. cbn [fst snd] in *. subst b1.
  unfold trackcorr_c_finish in H2. destruct (Z.eqb_spec (last - first) 0); [lia|].
  change (next F D (fst (([A last; B last; C last; E last], dk1), nl1))) with ([B last; C last; E last; A last], dk1) in H2.
  unfold write_frame_from_start in H2.
  change (pyget [B last; C last; E last; A last] 0) with (Ok (B last)) in H2. cbn [bind] in H2. injection H2 as _ <-.
  unfold put. rewrite Z.eqb_refl. split; [|split; [auto|split; [|lia]]].
  - intros s Hs. destruct (Z.eqb_spec s last); [lia|]. rewrite HD.
    destruct (Z.leb_spec first s); destruct (Z.ltb_spec s last); cbn [andb]; try lia. auto.
  - intros s Hs. destruct (Z.eqb_spec s last); [lia|]. rewrite HD.
    destruct (Z.leb_spec first s); destruct (Z.ltb_spec s last); cbn [andb]; try lia; auto.
Qed.

(** which frame every slot holds *)
Theorem forward_slots first last d0 A B C E N : forward_history first last d0 A B C E N -> first < last ->
  forall s, first <= s <= last ->
    version false d0 s (B s) /\ (first < s -> version false d0 (s - 1) (A s)) /\
    (s < last -> version false d0 (s + 1) (C s)) /\
    (s < last -> s = first \/ s + 2 <= last -> version false d0 (s + 2) (E s)) /\
    (first + 3 <= last -> s = last - 1 -> version false d0 (last - 3) (E s)).
Proof.
  intros (P1 & P2 & P3 & HS) Hl.
  assert (G : forall n s, s = first + Z.of_nat n -> s <= last ->
    version false d0 s (B s) /\ (first < s -> version false d0 (s - 1) (A s)) /\
    (s < last -> version false d0 (s + 1) (C s)) /\
    (s < last -> s = first \/ s + 2 <= last -> version false d0 (s + 2) (E s))).
  { induction n as [|n IH]; intros s -> Hs.
    - rewrite Z.add_0_r. split; [now apply v_read|]. split; [lia|]. split; [intros; now apply v_read|]. intros _ _. now apply v_read.
    - set (k := first + Z.of_nat n). replace (first + Z.of_nat (S n)) with (k + 1) in * by (unfold k; lia).
      destruct (IH k eq_refl ltac:(lia)) as (I1 & I2 & I3 & I4).
      destruct (HS k ltac:(unfold k in *; lia)) as (S1 & S2).
      split; [eapply v_fwd2; [apply I3; lia|exact S1]|].
      split; [intros _; replace (k + 1 - 1) with k by lia; eapply v_fwd1; [apply I1|exact S1]|]. split.
      + intros Hk. replace (k + 1 + 1) with (k + 2) by lia. eapply v_fwd3; [apply I4; [lia|]|exact S1]. unfold k in *. lia.
      + intros Hk [Hx|Hx]; [unfold k in Hx; lia|]. destruct (Z.leb_spec (k + 3) last); [|lia].
        replace (k + 1 + 2) with (k + 3) by lia. now apply v_read. }
  intros s Hs. destruct (G (Z.to_nat (s - first)) s ltac:(lia) ltac:(lia)) as (I1 & I2 & I3 & I4).
  split; auto. split; auto. split; auto. split; auto.
  intros Hl3 ->. destruct (HS (last - 2) ltac:(lia)) as (_ & S2). destruct (Z.leb_spec (last - 2 + 3) last); [lia|].
  replace (last - 2 + 1) with (last - 1) in S2 by lia. rewrite S2.
  destruct (G (Z.to_nat (last - 2 - first)) (last - 2) ltac:(lia) ltac:(lia)) as (_ & I2' & _).
  replace (last - 3) with (last - 2 - 1) by lia. apply I2'. lia.
Qed.

(** ---- backward ---- *)
Lemma zdown_cons hi lo : lo < hi -> zdown hi lo = hi :: zdown (hi - 1) lo.
Proof.
  intros H. unfold zdown. replace (hi - 1 + 1) with hi by lia. rewrite zrange_snoc by lia. rewrite rev_app_distr. reflexivity.
Qed.
Lemma zdown_empty hi lo : hi <= lo -> zdown hi lo = [].
Proof. intros H. unfold zdown. rewrite zrange_empty by lia. reflexivity. Qed.
Lemma zdown_last hi lo x : lo < hi -> List.last (zdown hi lo) x = lo + 1.
Proof. intros H. unfold zdown. rewrite zrange_cons by lia. simpl. apply last_last. Qed.
Lemma In_zdown hi lo k : In k (zdown hi lo) <-> lo < k <= hi.
Proof. unfold zdown. rewrite <- in_rev, In_zrange. lia. Qed.

Lemma back_prime_ok last e0 e1 e2 e3 d0 st :
  foldM (fun st step => do st <- read_frame_at_end F D parse st step true; Ok (next F D st)) (zdown last (last - 4)) ([e0; e1; e2; e3], d0) = Ok st ->
  exists a b c d, prev F D st = ([a; b; c; d], d0) /\ parse true (d0 last) = Ok a /\ parse true (d0 (last - 1)) = Ok b /\
    parse true (d0 (last - 2)) = Ok c /\ parse true (d0 (last - 3)) = Ok d.
Proof.
  rewrite (zdown_cons last) by lia. rewrite (zdown_cons (last - 1)) by lia. rewrite (zdown_cons (last - 1 - 1)) by lia.
  rewrite (zdown_cons (last - 1 - 1 - 1)) by lia. rewrite zdown_empty by lia.
  replace (last - 1 - 1 - 1) with (last - 3) by lia. replace (last - 1 - 1) with (last - 2) by lia. cbn [foldM].
  intros H.
  apply bind_ok in H as (s1 & H1 & H). apply read_next in H1 as (a & Ea & ->).
  apply bind_ok in H as (s2 & H2 & H). apply read_next in H2 as (b & Eb & ->).
  apply bind_ok in H as (s3 & H3 & H). apply read_next in H3 as (c & Ec & ->).
  apply bind_ok in H as (s4 & H4 & H). apply read_next in H4 as (d & Ed & ->).
  injection H as <-. exists a, b, c, d. auto.
Qed.

Lemma bwd_one first a b c d dk nl s st' nl' : trackback_loop first (([a; b; c; d], dk), nl) s = Ok (st', nl') ->
  exists b' c' n d'', bstep a b c d = Ok (b', c', n) /\ st' = ([b'; c'; d; d''], put D dk s (store b')) /\ nl' = nl + n /\
    (if first <=? s - 3 then parse true (put D dk s (store b') (s - 3)) = Ok d'' else d'' = a).
Proof.
  unfold Model_fb.trackback_loop. intros H.
  change (pyget [a; b; c; d] 0) with (Ok a) in H. change (pyget [a; b; c; d] 1) with (Ok b) in H.
  change (pyget [a; b; c; d] 2) with (Ok c) in H. change (pyget [a; b; c; d] 3) with (Ok d) in H. cbn [bind] in H.
  destruct (bstep a b c d) as [[[b' c'] n]|] eqn:Ef; [|discriminate]. cbn [bind] in H.
  change (pyset [a; b; c; d] 1 b') with (Ok [a; b'; c; d]) in H. cbn [bind] in H.
  change (pyset [a; b'; c; d] 2 c') with (Ok [a; b'; c'; d]) in H. cbn [bind next fst snd fb_next app] in H.
  change (next F D ([a; b'; c'; d], dk)) with ([b'; c'; d; a], dk) in H.
  unfold write_frame_from_start in H. change (pyget [b'; c'; d; a] 0) with (Ok b') in H. cbn [bind] in H.
  exists b', c', n.
  rewrite Z.gtb_ltb in H. destruct (Z.leb_spec first (s - 3)); destruct (Z.ltb_spec (first + 2) s); try lia.
  - unfold read_frame_at_end in H. destruct (parse true (put D dk s (store b') (s - 3))) as [d''|] eqn:Ep; cbn [bind] in H; [|discriminate H].
     rewrite set_last4 in H. cbn [bind] in H. injection H as <- <-. exists d''. auto.
  - cbn [bind] in H. injection H as <- <-. exists a. auto.
Qed.

Lemma bwd_loop first n : forall s a b c d dk nl st' nl', s - first = Z.of_nat n ->
  foldM (trackback_loop first) (zdown s first) (([a; b; c; d], dk), nl) = Ok (st', nl') ->
  exists A B C E N, A s = a /\ B s = b /\ C s = c /\ E s = d /\
    (forall k, first < k <= s -> bstep (A k) (B k) (C k) (E k) = Ok (A (k - 1), B (k - 1), N k) /\ C (k - 1) = E k /\
       (if first <=? k - 3 then parse true (dk (k - 3)) = Ok (E (k - 1)) else E (k - 1) = A k)) /\
    fst st' = [A first; B first; C first; E first] /\
    (forall k, snd st' k = if (first <? k) && (k <=? s) then store (A (k - 1)) else dk k) /\
    nl' = nl + total N (zdown s first).
Proof.
  induction n as [|n IH]; intros s a b c d dk nl st' nl' Hn H.
  - assert (s = first) as -> by lia. rewrite zdown_empty in * by lia. injection H as <- <-.
    exists (fun _ => a), (fun _ => b), (fun _ => c), (fun _ => d), (fun _ => 0).
    repeat (split; auto); try lia.
    + intros k. destruct (Z.ltb_spec first k); destruct (Z.leb_spec k first); try lia; auto.
    + cbn. lia.
  - rewrite zdown_cons in * by lia. cbn [foldM] in H. apply bind_ok in H as ([st1 nl1] & H1 & H).
    apply bwd_one in H1 as (b' & c' & m & d'' & Ef & -> & -> & Er).
    apply IH in H as (A & B & C & E & N & A0 & B0 & C0 & E0 & HS & HB & HD & HN); [|lia].
    exists (fun k => if k =? s then a else A k), (fun k => if k =? s then b else B k),
      (fun k => if k =? s then c else C k), (fun k => if k =? s then d else E k), (fun k => if k =? s then m else N k).
    rewrite Z.eqb_refl. split; auto. split; auto. split; auto. split; auto.
    destruct (Z.eqb_spec first s); [lia|]. split; [|split; [auto|split]].
    + intros k Hk. destruct (Z.eqb_spec (k - 1) s); [lia|]. destruct (Z.eqb_spec k s) as [->|Nk].
      * rewrite A0, B0, C0, E0. split; auto. split; auto. unfold put in Er. destruct (Z.eqb_spec (s - 3) s); [lia|]. exact Er.
      * destruct (HS k ltac:(lia)) as (S1 & S2 & S3). split; auto. split; auto. unfold put in S3. destruct (Z.eqb_spec (k - 3) s); [lia|]. exact S3.
    + intros k. rewrite HD. unfold put. destruct (Z.ltb_spec first k); destruct (Z.leb_spec k (s - 1)); destruct (Z.leb_spec k s); cbn [andb]; try lia.
      * destruct (Z.eqb_spec (k - 1) s); [lia|]. auto.
      * assert (k = s) as -> by lia. rewrite Z.eqb_refl. destruct (Z.eqb_spec (s - 1) s); [lia|]. now rewrite A0.
      * destruct (Z.eqb_spec k s); [lia|]. auto.
      * destruct (Z.eqb_spec k s); [lia|]. auto.
    + rewrite HN. unfold total. cbn [map fold_right]. rewrite Z.eqb_refl.
      assert (MM : forall l, (forall k, In k l -> k < s) -> map (fun k => if k =? s then m else N k) l = map N l).
      { intros l Hl. apply map_ext_in. intros k Hk. specialize (Hl k Hk). destruct (Z.eqb_spec k s); [lia|auto]. }
      rewrite MM; [lia|]. intros k Hk. apply In_zdown in Hk. lia.
Qed.

Theorem backward_ok first last e0 e1 e2 e3 d0 buf d1 nl : first + 2 <= last ->
  trackback_c first last ([e0; e1; e2; e3], d0) = Ok ((buf, d1), nl) ->
  exists A B C E N, backward_history first last d0 A B C E N /\
    (forall s, first + 1 < s < last -> d1 s = store (A (s - 1))) /\
    d1 (first + 1) = store (B first) /\
    (forall s, ~ first < s < last -> d1 s = d0 s) /\ nl = total N (zdown (last - 1) first).
Proof.
  intros Hl H. unfold Model_fb.trackback_c in H. apply bind_ok in H as (st0 & H0 & H).
  apply back_prime_ok in H0 as (a & b & c & d & Ep & Pa & Pb & Pc & Pd). rewrite Ep in H.
  apply bind_ok in H as ([st1 nl1] & H1 & H). destruct (Z.eqb_spec (last - first - 1) 0); [lia|].
  apply bind_ok in H as ([buf2 dk2] & H2 & H). injection H as <- <- <-.
  apply (bwd_loop first (Z.to_nat (last - 1 - first))) in H1 as (A & B & C & E & N & A0 & B0 & C0 & E0 & HS & HB & HD & HN); [|lia].
  exists A, B, C, E, N. split; [split; [|split; [|split; [|split]]]; try congruence; auto|].
  destruct st1 as [b1 dk1]. cbn [fst snd] in *. subst b1. rewrite zdown_last in H2 by lia.
  change (next F D (fst (([A first; B first; C first; E first], dk1), nl1))) with ([B first; C first; E first; A first], dk1) in H2.
  unfold write_frame_from_start in H2.
  change (pyget [B first; C first; E first; A first] 0) with (Ok (B first)) in H2. cbn [bind] in H2. injection H2 as _ <-.
  unfold put. rewrite Z.eqb_refl. split; [|split; [auto|split; [|lia]]].
  - intros s Hs. destruct (Z.eqb_spec s (first + 1)); [lia|]. rewrite HD.
    destruct (Z.ltb_spec first s); destruct (Z.leb_spec s (last - 1)); cbn [andb]; try lia. auto.
  - intros s Hs. destruct (Z.eqb_spec s (first + 1)); [lia|]. rewrite HD.
    destruct (Z.ltb_spec first s); destruct (Z.leb_spec s (last - 1)); cbn [andb]; try lia; auto.
Qed.

Theorem backward_slots first last d0 A B C E N : backward_history first last d0 A B C E N -> first + 2 <= last ->
  forall s, first <= s < last ->
    version true d0 (s + 1) (A s) /\ version true d0 s (B s) /\
    (first < s -> version true d0 (s - 1) (C s)) /\
    (first <= s - 2 \/ s = last - 1 -> version true d0 (s - 2) (E s)) /\
    (first + 3 <= last -> s = first + 1 -> version true d0 (first + 3) (E s)).
Proof.
  intros (P1 & P2 & P3 & P4 & HS) Hl.
  assert (G : forall n s, s = last - 1 - Z.of_nat n -> first <= s ->
    version true d0 (s + 1) (A s) /\ version true d0 s (B s) /\
    (first < s -> version true d0 (s - 1) (C s)) /\
    (first <= s - 2 \/ s = last - 1 -> version true d0 (s - 2) (E s))).
  { induction n as [|n IH]; intros s -> Hs.
    - rewrite Z.sub_0_r. replace (last - 1 + 1) with last by lia. replace (last - 1 - 1) with (last - 2) by lia.
      replace (last - 1 - 2) with (last - 3) by lia. split; [now apply v_read|]. split; [now apply v_read|]. split; intros; now apply v_read.
    - set (k := last - 1 - Z.of_nat n). replace (last - 1 - Z.of_nat (S n)) with (k - 1) in * by (unfold k; lia).
      destruct (IH k eq_refl ltac:(lia)) as (I1 & I2 & I3 & I4).
      destruct (HS k ltac:(unfold k in *; lia)) as (S1 & S2 & S3).
      split; [replace (k - 1 + 1) with k by lia; eapply v_bwd1; [apply I2|exact S1]|].
      split; [eapply v_bwd2; [apply I3; lia|exact S1]|]. split.
      + intros Hk. rewrite S2. replace (k - 1 - 1) with (k - 2) by lia. apply I4. lia.
      + intros [Hk|Hk]; [|unfold k in *; lia]. destruct (Z.leb_spec first (k - 3)); [|lia].
        replace (k - 1 - 2) with (k - 3) by lia. now apply v_read. }
  intros s Hs. destruct (G (Z.to_nat (last - 1 - s)) s ltac:(lia) ltac:(lia)) as (I1 & I2 & I3 & I4).
  split; auto. split; auto. split; auto. split; auto.
  intros Hl3 ->. destruct (HS (first + 2) ltac:(lia)) as (_ & _ & S3). destruct (Z.leb_spec first (first + 2 - 3)); [lia|].
  replace (first + 2 - 1) with (first + 1) in S3 by lia. rewrite S3.
  destruct (G (Z.to_nat (last - 1 - (first + 2))) (first + 2) ltac:(lia) ltac:(lia)) as (I1' & _).
  replace (first + 3) with (first + 2 + 1) by lia. exact I1'.
Qed.
End SchedProof.
