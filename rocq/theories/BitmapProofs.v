(** * Proofs about the bitmap model. *)
From Verif Require Import Base BaseFacts BitmapModel.
Ltac Zify.zify_post_hook ::= Z.div_mod_to_equations.

(** ** Bits of N *)
Lemma N_bits_lt_pow2 a n :
  (forall m, (n <= m)%N -> N.testbit a m = false) -> (a < 2 ^ n)%N.
Proof.
  intros H. assert (E : (a mod 2 ^ n)%N = a).
  { apply N.bits_inj. intros m. destruct (N.lt_ge_cases m n) as [Hm|Hm].
    - rewrite N.mod_pow2_bits_low by exact Hm. reflexivity.
    - rewrite N.mod_pow2_bits_high by exact Hm. symmetry. apply H. exact Hm. }
  rewrite <- E. apply N.mod_lt. apply N.pow_nonzero. discriminate.
Qed.

Lemma N_lt_pow2_bits a n m : (a < 2 ^ n)%N -> (n <= m)%N -> N.testbit a m = false.
Proof.
  intros H Hm. rewrite <- (N.mod_small a (2 ^ n) H). apply N.mod_pow2_bits_high. exact Hm.
Qed.

Lemma N_add_pow2_lor a s :
  N.testbit a s = false -> (a + N.shiftl 1 s = N.lor a (2 ^ s))%N.
Proof.
  intros H. rewrite N.shiftl_1_l.
  assert (L : N.land a (2 ^ s) = 0%N).
  { apply N.bits_inj. intros m. rewrite N.land_spec, N.bits_0, N.pow2_bits_eqb.
    destruct (N.eqb_spec s m) as [->|]; [rewrite H|rewrite andb_false_r]; reflexivity. }
  rewrite N.add_nocarry_lxor by exact L. apply N.lxor_lor. exact L.
Qed.

(** ** popcount *)
Lemma popcount_div2 n : popcount n = popcount (N.div2 n) + b2n (N.odd n).
Proof. destruct n as [|[p|p|]]; cbn; lia. Qed.

Lemma popcount_shiftr w m :
  popcount (N.shiftr w m) = popcount (N.shiftr w (N.succ m)) + b2n (N.testbit w m).
Proof.
  rewrite (popcount_div2 (N.shiftr w m)). rewrite N.shiftr_succ_r. f_equal.
  rewrite <- N.bit0_odd, N.shiftr_spec by apply N.le_0_l. reflexivity.
Qed.

(** Number of [true] among [f 0 .. f (n-1)]. *)
Fixpoint cnt (f : nat -> bool) (n : nat) : nat :=
  match n with 0 => 0 | S n' => cnt f n' + b2n (f n') end.

Lemma cnt_firstn bits n :
  cnt (fun i => nth i bits false) n = count_occ Bool.bool_dec (firstn n bits) true.
Proof.
  revert bits. induction n as [|n IH]; intros bits; cbn [cnt]; [reflexivity|].
  rewrite IH. destruct (nth_error bits n) as [b|] eqn:E.
  - rewrite (nth_error_nth bits n false E).
    apply nth_error_split in E. destruct E as (l1 & l2 & -> & <-).
    assert (E1 : firstn (length l1) (l1 ++ b :: l2) = l1).
    { rewrite firstn_app, firstn_all, Nat.sub_diag. cbn [firstn]. apply app_nil_r. }
    assert (E2 : firstn (S (length l1)) (l1 ++ b :: l2) = l1 ++ [b]).
    { rewrite firstn_app, firstn_all2 by lia.
      replace (S (length l1) - length l1) with 1 by lia. reflexivity. }
    rewrite E1, E2.
    rewrite count_occ_app. cbn [count_occ]. destruct b, Bool.bool_dec; cbn [b2n]; try lia; congruence.
  - apply nth_error_None in E. rewrite nth_overflow by exact E. cbn [b2n].
    rewrite !firstn_all2 by lia. lia.
Qed.

(** A word read from its top bit down. *)
Lemma popcount_top f w base m :
  (w < 2 ^ 32)%N -> m <= 32 ->
  (forall j, j < 32 -> N.testbit w (N.of_nat (31 - j)) = f (base + j)) ->
  cnt f (base + m) = cnt f base + popcount (N.shiftr w (N.of_nat (32 - m))).
Proof.
  intros Hw Hm Hf. induction m as [|m IH].
  - rewrite Nat.add_0_r. change (N.of_nat (32 - 0)) with 32%N.
    replace (N.shiftr w 32) with 0%N; [cbn; lia|].
    symmetry. rewrite N.shiftr_div_pow2. apply N.div_small. exact Hw.
  - rewrite Nat.add_succ_r. cbn [cnt]. rewrite IH by lia.
    rewrite (popcount_shiftr w (N.of_nat (32 - S m))).
    replace (N.succ (N.of_nat (32 - S m))) with (N.of_nat (32 - m)) by lia.
    replace (32 - S m) with (31 - m) by lia.
    rewrite (Hf m) by lia. lia.
Qed.

(** ** Builder invariant: [bytes] hold exactly the pushed [bits], most
    significant bit first, zero padded. *)
Definition bytes_rel (bytes : list N) (bits : list bool) : Prop :=
  length bytes = (length bits + 7) / 8 /\
  Forall (fun b => (b < 2 ^ 8)%N) bytes /\
  forall i, N.testbit (nth (i / 8) bytes 0%N) (N.of_nat (7 - i mod 8)) = nth i bits false.

Lemma bytes_rel_nil : bytes_rel [] [].
Proof.
  split; [reflexivity|]. split; [constructor|]. intros i.
  destruct (i / 8); cbn [nth]; rewrite N.bits_0; destruct i; reflexivity.
Qed.

Lemma nth_snoc_bits (bits : list bool) bit i :
  nth i (bits ++ [bit]) false = if i =? length bits then bit else nth i bits false.
Proof.
  destruct (Nat.eqb_spec i (length bits)) as [->|Hi].
  - rewrite app_nth2, Nat.sub_diag by lia. reflexivity.
  - destruct (Nat.lt_ge_cases i (length bits)).
    + rewrite app_nth1 by lia. reflexivity.
    + rewrite !nth_overflow; [reflexivity|lia|rewrite app_length; cbn; lia].
Qed.

Lemma push_rel b bits bit :
  b_length b = length bits -> bytes_rel (b_bytes b) bits ->
  b_length (builder_push b bit) = length (bits ++ [bit]) /\
  bytes_rel (b_bytes (builder_push b bit)) (bits ++ [bit]).
Proof.
  intros Hl (HL & HF & HB). unfold builder_push. cbn [b_length b_bytes].
  split; [rewrite app_length; cbn [length]; lia|].
  rewrite Hl in *. set (n := length bits) in *.
  destruct (Nat.eqb_spec (n mod 8) 0) as [E|E].
  - (* a new byte *)
    split; [rewrite !app_length; cbn [length]; fold n; lia|]. split.
    { apply Forall_app. split; [exact HF|]. constructor; [|constructor].
      rewrite E. destruct bit; reflexivity. }
    intros i. rewrite nth_snoc_bits. fold n. rewrite E. change (7 - 0) with 7.
    assert (HLn : length (b_bytes b) = n / 8) by lia.
    destruct (Nat.lt_ge_cases i n) as [Hi|Hi].
    + rewrite app_nth1 by lia. rewrite HB.
      destruct (Nat.eqb_spec i n); [lia|reflexivity].
    + rewrite app_nth2 by lia.
      rewrite (nth_overflow bits) by (fold n; lia).
      destruct (Nat.lt_ge_cases (i / 8) (n / 8 + 1)) as [Hi2|Hi2].
      * replace (i / 8 - length (b_bytes b)) with 0 by lia. cbn [nth].
        destruct (Nat.eqb_spec i n) as [->|Hne].
        -- rewrite E. destruct bit; reflexivity.
        -- destruct bit; [|apply N.bits_0].
           change (N.shiftl 1 (N.of_nat 7)) with (2 ^ 7)%N. rewrite N.pow2_bits_eqb.
           destruct (N.eqb_spec 7 (N.of_nat (7 - i mod 8))); [lia|reflexivity].
      * rewrite nth_overflow by (cbn [length]; lia). rewrite N.bits_0.
        destruct (Nat.eqb_spec i n); [lia|reflexivity].
  - (* current byte *)
    assert (Hn0 : b_bytes b <> []).
    { intros Hc. rewrite Hc in HL. cbn [length] in HL. lia. }
    destruct (exists_last Hn0) as (ini & lst & Eb).
    assert (HLn : length ini = n / 8).
    { rewrite Eb, app_length in HL. cbn [length] in HL. lia. }
    assert (Hl8 : length (b_bytes b) = n / 8 + 1) by lia.
    destruct bit.
    + rewrite Eb at 1 2. rewrite removelast_last, last_last.
      assert (Hbit : N.testbit lst (N.of_nat (7 - n mod 8)) = false).
      { specialize (HB n). rewrite Eb, app_nth2 in HB by lia.
        replace (n / 8 - length ini) with 0 in HB by lia. cbn [nth] in HB.
        rewrite HB. apply nth_overflow. fold n. lia. }
      rewrite N_add_pow2_lor by exact Hbit.
      assert (Hlst : (lst < 2 ^ 8)%N).
      { rewrite Eb in HF. apply Forall_app in HF. destruct HF as [_ HF]. inversion HF; assumption. }
      split; [rewrite !app_length; cbn [length]; fold n; lia|]. split.
      { apply Forall_app. rewrite Eb in HF. apply Forall_app in HF.
        split; [apply HF|]. constructor; [|constructor].
        apply N_bits_lt_pow2. intros m Hm. rewrite N.lor_spec, N.pow2_bits_eqb.
        rewrite (N_lt_pow2_bits lst 8) by assumption.
        destruct (N.eqb_spec (N.of_nat (7 - n mod 8)) m); [lia|reflexivity]. }
      intros i. rewrite nth_snoc_bits. fold n. rewrite <- HB, Eb.
      destruct (Nat.lt_ge_cases (i / 8) (n / 8)) as [Hi|Hi].
      * rewrite !app_nth1 by lia. destruct (Nat.eqb_spec i n); [lia|reflexivity].
      * rewrite !app_nth2 by lia. rewrite HLn.
        destruct (Nat.eq_dec (i / 8) (n / 8)) as [Hi2|Hi2].
        -- replace (i / 8 - n / 8) with 0 by lia. cbn [nth].
           rewrite N.lor_spec, N.pow2_bits_eqb.
           destruct (Nat.eqb_spec i n) as [->|Hne].
           ++ rewrite N.eqb_refl, orb_true_r. reflexivity.
           ++ destruct (N.eqb_spec (N.of_nat (7 - n mod 8)) (N.of_nat (7 - i mod 8))); [lia|].
              rewrite orb_false_r. reflexivity.
        -- rewrite !nth_overflow by (cbn [length]; lia). rewrite N.bits_0.
           destruct (Nat.eqb_spec i n) as [->|]; [lia|reflexivity].
    + split; [rewrite app_length; cbn [length]; fold n; lia|]. split; [exact HF|].
      intros i. rewrite nth_snoc_bits. fold n. rewrite HB.
      destruct (Nat.eqb_spec i n) as [->|Hne]; [|reflexivity].
      apply nth_overflow. fold n. lia.
Qed.

Lemma pushes_rel bits :
  b_length (fold_left builder_push bits builder_new) = length bits /\
  bytes_rel (b_bytes (fold_left builder_push bits builder_new)) bits.
Proof.
  induction bits as [|bit bits IH] using rev_ind.
  - split; [reflexivity|apply bytes_rel_nil].
  - rewrite fold_left_app. cbn [fold_left]. apply push_rel; apply IH.
Qed.

(** ** finish: words *)
Definition words_rel (words : list N) (bits : list bool) : Prop :=
  length words = (length bits + 31) / 32 /\
  Forall (fun w => (w < 2 ^ 32)%N) words /\
  forall i, N.testbit (nth (i / 32) words 0%N) (N.of_nat (31 - i mod 32)) = nth i bits false.

(** State of the word loop after [n] bytes. *)
Definition wloop_inv (bytes : list N) (n : nat) (st : list N * nat * nat) : Prop :=
  let '(w, shift, wi) := st in
  shift = 24 - 8 * (n mod 4) /\ wi = n / 4 /\ length w = (n + 3) / 4 /\
  Forall (fun x => (x < 2 ^ 32)%N) w /\
  forall i, N.testbit (nth (i / 32) w 0%N) (N.of_nat (31 - i mod 32)) =
            if i <? 8 * n then N.testbit (nth (i / 8) bytes 0%N) (N.of_nat (7 - i mod 8)) else false.

Lemma testbit_shifted byte sh j :
  (byte < 2 ^ 8)%N -> sh <= 24 -> j < 32 ->
  N.testbit (N.shiftl byte (N.of_nat sh) mod 2 ^ 32) (N.of_nat j) =
  if (sh <=? j) && (j <? sh + 8) then N.testbit byte (N.of_nat (j - sh)) else false.
Proof.
  intros Hb Hs Hj. rewrite N.mod_pow2_bits_low by lia.
  destruct (Nat.leb_spec sh j); cbn [andb].
  - rewrite N.shiftl_spec_high' by lia.
    replace (N.of_nat j - N.of_nat sh)%N with (N.of_nat (j - sh)) by lia.
    destruct (Nat.ltb_spec j (sh + 8)); [reflexivity|].
    apply (N_lt_pow2_bits byte 8); [exact Hb|lia].
  - apply N.shiftl_spec_low. lia.
Qed.

Lemma words_step_inv bytes n st byte :
  nth_error bytes n = Some byte -> (byte < 2 ^ 8)%N ->
  wloop_inv bytes n st ->
  exists st', words_step st byte = Ok st' /\ wloop_inv bytes (S n) st'.
Proof.
  intros Hn Hb8. destruct st as [[w shift] wi]. intros (Hs & Hw & Hl & HF & HB).
  unfold words_step.
  set (w1 := if shift =? 24 then w ++ [0%N] else w).
  assert (Hl1 : length w1 = n / 4 + 1).
  { unfold w1. destruct (Nat.eqb_spec shift 24); [rewrite app_length; cbn [length]; lia|lia]. }
  assert (HF1 : Forall (fun x => (x < 2 ^ 32)%N) w1).
  { unfold w1. destruct (shift =? 24); [|exact HF].
    apply Forall_app; split; [exact HF|]. constructor; [reflexivity|constructor]. }
  assert (HB1 : forall i, nth i w1 0%N = nth i w 0%N).
  { intros i. unfold w1. destruct (Nat.eqb_spec shift 24); [|reflexivity].
    destruct (Nat.lt_ge_cases i (length w)).
    - apply app_nth1. lia.
    - rewrite app_nth2 by lia. rewrite (nth_overflow w) by lia.
      destruct (i - length w) as [|[|]]; reflexivity. }
  rewrite (nth_res_nth w1 wi 0%N) by lia. cbn [bind].
  eexists. split; [reflexivity|].
  set (word := (N.shiftl byte (N.of_nat shift) mod 2 ^ 32)%N).
  set (w2 := list_set w1 wi (N.lor (nth wi w1 0%N) word)).
  assert (HF2 : Forall (fun x => (x < 2 ^ 32)%N) w2).
  { apply Forall_forall. intros x Hx. apply In_nth with (d := 0%N) in Hx.
    destruct Hx as (j & Hj & <-). unfold w2 in *. rewrite length_list_set in Hj.
    rewrite nth_list_set by lia.
    rewrite Forall_forall in HF1.
    destruct (Nat.eqb_spec j wi) as [->|].
    - apply N_bits_lt_pow2. intros m Hm. rewrite N.lor_spec.
      rewrite (N_lt_pow2_bits (nth wi w1 0%N) 32); [|apply HF1, nth_In; lia|exact Hm].
      apply (N_lt_pow2_bits word 32); [apply N.mod_lt; discriminate|exact Hm].
    - apply HF1, nth_In. exact Hj. }
  assert (HB2 : forall i, N.testbit (nth (i / 32) w2 0%N) (N.of_nat (31 - i mod 32)) =
            if i <? 8 * S n then N.testbit (nth (i / 8) bytes 0%N) (N.of_nat (7 - i mod 8)) else false).
  { intros i. unfold w2. rewrite nth_list_set by lia.
    destruct (Nat.eqb_spec (i / 32) wi) as [E|E].
    - rewrite N.lor_spec. rewrite <- E. rewrite HB1, HB.
      unfold word. rewrite testbit_shifted by (lia || assumption).
      destruct (Nat.ltb_spec i (8 * n)) as [H1|H1].
      + destruct (Nat.ltb_spec i (8 * S n)); [|lia].
        destruct (Nat.leb_spec shift (31 - i mod 32)); cbn [andb]; [|rewrite orb_false_r; reflexivity].
        destruct (Nat.ltb_spec (31 - i mod 32) (shift + 8)); [lia|].
        rewrite orb_false_r. reflexivity.
      + cbn [orb].
        destruct (Nat.ltb_spec i (8 * S n)) as [H2|H2].
        * destruct (Nat.leb_spec shift (31 - i mod 32)); [|lia].
          destruct (Nat.ltb_spec (31 - i mod 32) (shift + 8)); [|lia]. cbn [andb].
          replace (i / 8) with n by lia. rewrite (nth_error_nth bytes n 0%N Hn).
          f_equal. lia.
        * destruct (Nat.leb_spec shift (31 - i mod 32)); cbn [andb]; [lia|reflexivity].
    - rewrite HB1, HB.
      destruct (Nat.ltb_spec i (8 * n)), (Nat.ltb_spec i (8 * S n)); try reflexivity; lia. }
  destruct (Nat.eqb_spec shift 0); (split; [lia|]); (split; [lia|]); 
    (split; [unfold w2; rewrite length_list_set; lia|]); (split; [exact HF2|exact HB2]).
Qed.

Lemma words_loop_inv bytes :
  Forall (fun b => (b < 2 ^ 8)%N) bytes ->
  forall suf n st, skipn n bytes = suf -> n + length suf = length bytes -> wloop_inv bytes n st ->
  exists st', foldM words_step st suf = Ok st' /\ wloop_inv bytes (length bytes) st'.
Proof.
  intros HF suf. induction suf as [|byte suf IH]; intros n st Hsuf Hlen Hinv; cbn [foldM].
  - exists st. split; [reflexivity|]. cbn [length] in Hlen.
    replace (length bytes) with n by lia. exact Hinv.
  - assert (Hn : nth_error bytes n = Some byte).
    { rewrite <- (firstn_skipn n bytes), Hsuf. cbn [length] in Hlen.
      rewrite nth_error_app2; rewrite firstn_length_le by lia; [|lia].
      rewrite Nat.sub_diag. reflexivity. }
    destruct (words_step_inv bytes n st byte) as (st1 & E1 & I1); auto.
    { rewrite Forall_forall in HF. apply HF. eapply nth_error_In; eauto. }
    rewrite E1. cbn [bind]. apply (IH (S n)); auto.
    + rewrite <- (firstn_skipn n bytes), Hsuf at 1. cbn [length] in Hlen.
      rewrite skipn_app, firstn_length_le by lia.
      rewrite skipn_all2 by (rewrite firstn_length_le; lia).
      replace (S n - n) with 1 by lia. reflexivity.
    + cbn [length] in Hlen. lia.
Qed.

Lemma words_ok bytes bits :
  bytes_rel bytes bits ->
  exists w, (st <- foldM words_step ([], 24, 0) bytes ;; Ok (fst (fst st))) = Ok w /\ words_rel w bits.
Proof.
  intros (HL & HF & HB).
  destruct (words_loop_inv bytes HF bytes 0 ([], 24, 0)) as (st & E & I); auto.
  - split; [reflexivity|]. split; [reflexivity|]. split; [reflexivity|]. split; [constructor|].
    intros i. destruct (Nat.ltb_spec i (8 * 0)); [lia|]. destruct (i / 32); cbn [nth]; apply N.bits_0.
  - rewrite E. cbn [bind]. destruct st as [[w s] wi]. cbn [fst].
    exists w. split; [reflexivity|]. destruct I as (_ & _ & Hl & HF' & HB').
    split; [lia|]. split; [exact HF'|]. intros i. rewrite HB'.
    destruct (Nat.ltb_spec i (8 * length bytes)); [apply HB|].
    symmetry. apply nth_overflow. lia.
Qed.

Lemma div_ceil_32 n : div_ceil n 32 = (n + 31) / 32.
Proof. unfold div_ceil. destruct (Nat.eqb_spec (n mod 32) 0); lia. Qed.

(** ** words and counts *)
Lemma words_cnt words bits w m :
  words_rel words bits -> w < length words -> m <= 32 ->
  cnt (fun i => nth i bits false) (w * 32 + m) =
  cnt (fun i => nth i bits false) (w * 32) + popcount (N.shiftr (nth w words 0%N) (N.of_nat (32 - m))).
Proof.
  intros (HL & HF & HB) Hw Hm. apply popcount_top.
  - rewrite Forall_forall in HF. apply HF, nth_In. exact Hw.
  - exact Hm.
  - intros j Hj. rewrite <- HB. f_equal; [f_equal; lia|]. f_equal. lia.
Qed.

Lemma words_cnt_full words bits w n :
  words_rel words bits -> w + n <= length words ->
  cnt (fun i => nth i bits false) ((w + n) * 32) =
  cnt (fun i => nth i bits false) (w * 32) + sum_nat (map popcount (firstn n (skipn w words))).
Proof.
  intros HR. revert w. induction n as [|n IH]; intros w Hn.
  - rewrite Nat.add_0_r. cbn [firstn map sum_nat fold_right]. lia.
  - replace (w + S n) with (S w + n) by lia. rewrite IH by lia.
    destruct (skipn w words) as [|x xs] eqn:E.
    { assert (length (skipn w words) = 0) by (rewrite E; reflexivity).
      rewrite skipn_length in H. lia. }
    replace (skipn (S w) words) with xs.
    2:{ change (S w) with (1 + w). rewrite <- skipn_skipn, E. reflexivity. }
    cbn [firstn map sum_nat fold_right].
    change (fold_right Nat.add 0 (map popcount (firstn n xs)))
      with (sum_nat (map popcount (firstn n xs))).
    replace (S w * 32) with (w * 32 + 32) by lia.
    rewrite (words_cnt words bits) by (auto; lia).
    replace (nth w words 0%N) with x.
    2:{ rewrite <- (firstn_skipn w words), E, app_nth2; rewrite firstn_length_le by lia; [|lia].
        rewrite Nat.sub_diag. reflexivity. }
    replace (N.shiftr x (N.of_nat (32 - 32))) with x by reflexivity. lia.
Qed.

(** ** index *)
Lemma mapM_nth_seq {A} (l : list A) a n :
  a + n <= length l -> mapM (fun j => nth_res l (a + j)) (seq 0 n) = Ok (firstn n (skipn a l)).
Proof.
  revert a. induction n as [|n IH]; intros a H; [reflexivity|].
  rewrite seq_S, mapM_app. rewrite IH by lia. cbn [bind mapM Nat.add].
  destruct (nth_error l (a + n)) as [x|] eqn:E.
  2:{ apply nth_error_None in E. lia. }
  rewrite (nth_res_ok _ _ _ E). cbn [bind]. f_equal.
  replace (S n) with (n + 1) by lia.
  rewrite <- (firstn_skipn n (firstn (n + 1) (skipn a l))).
  rewrite firstn_firstn, Nat.min_l by lia. f_equal.
  rewrite skipn_firstn_comm. replace (n + 1 - n) with 1 by lia.
  rewrite skipn_skipn.
  apply nth_error_split in E. destruct E as (l1 & l2 & -> & E).
  rewrite skipn_app, skipn_all2 by lia. replace (n + a - length l1) with 0 by lia. reflexivity.
Qed.

Definition index_rel (idx : list N) (bits : list bool) : Prop :=
  length idx = length bits / 32 / 4 /\
  forall b, b < length idx ->
    nth b idx 0%N = N.of_nat (cnt (fun i => nth i bits false) (S b * 128)).

Lemma index_loop_ok words bits n : words_rel words bits ->
  forall a, a + n <= length bits / 32 / 4 ->
  exists idx, index_loop words 4 (seq a n) (N.of_nat (cnt (fun i => nth i bits false) (a * 128))) = Ok idx
    /\ length idx = n
    /\ forall b, b < n -> nth b idx 0%N = N.of_nat (cnt (fun i => nth i bits false) (S (a + b) * 128)).
Proof.
  intros HR. induction n as [|n IH]; intros a Ha.
  - exists []. split; [reflexivity|]. split; [reflexivity|]. lia.
  - change (seq a (S n)) with (a :: seq (S a) n). cbn [index_loop].
    assert (HL : length words = (length bits + 31) / 32) by apply HR.
    rewrite mapM_nth_seq by lia. cbn [bind].
    assert (Ec : (N.of_nat (cnt (fun i => nth i bits false) (a * 128)) +
              N.of_nat (sum_nat (map popcount (firstn 4 (skipn (a * 4) words)))))%N
              = N.of_nat (cnt (fun i => nth i bits false) (S a * 128))).
    { pose proof (words_cnt_full words bits (a * 4) 4 HR) as Hc.
      replace ((a * 4 + 4) * 32) with (S a * 128) in Hc by lia.
      replace (a * 4 * 32) with (a * 128) in Hc by lia.
      rewrite Hc by lia. lia. }
    rewrite Ec. destruct (IH (S a)) as (idx & E & Hl & Hn); [lia|].
    rewrite E. cbn [bind]. eexists. split; [reflexivity|]. cbn [length]. split; [lia|].
    intros [|b] Hb; cbn [nth].
    + do 2 f_equal. lia.
    + rewrite Hn by lia. do 2 f_equal. lia.
Qed.

(** ** The bitmap built from [bits]. *)
Definition bitmap_rel (m : bitmap) (bits : list bool) : Prop :=
  bm_length m = length bits /\ bm_k m = 4 /\
  words_rel (bm_words m) bits /\ index_rel (bm_index m) bits.

Lemma bitmap_of_ok bits : exists m, bitmap_of bits = Ok m /\ bitmap_rel m bits.
Proof.
  unfold bitmap_of, builder_finish.
  destruct (pushes_rel bits) as (HL & HB). rewrite HL.
  rewrite div_ceil_32.
  destruct (words_ok _ _ HB) as (w & Ew & Rw).
  assert (Ew' : (if 0 <? (length bits + 31) / 32
     then st <- foldM words_step ([], 24, 0) (b_bytes (fold_left builder_push bits builder_new)) ;; Ok (fst (fst st))
     else Ok []) = Ok w).
  { destruct (Nat.ltb_spec 0 ((length bits + 31) / 32)); [exact Ew|].
    destruct Rw as (Hw & _). destruct w; [reflexivity|cbn [length] in Hw; lia]. }
  rewrite Ew'. cbn [bind].
  destruct (index_loop_ok w bits (length bits / 32 / 4) Rw 0) as (idx & Ei & Hl & Hi); [lia|].
  cbn [Nat.mul cnt] in Ei. change (N.of_nat 0) with 0%N in Ei. rewrite Ei. cbn [bind].
  eexists. split; [reflexivity|]. split; [reflexivity|]. split; [reflexivity|].
  split; [exact Rw|]. split; [exact Hl|]. intros b Hb. cbn [bm_index] in *.
  rewrite Hi by lia. reflexivity.
Qed.

Lemma bm_get_ok m bits i :
  bitmap_rel m bits -> i < length bits -> bm_get m i = Ok (nth i bits false).
Proof.
  intros (_ & _ & (HL & _ & HB) & _) Hi. unfold bm_get.
  rewrite (nth_res_nth _ _ 0%N) by lia. cbn [bind]. rewrite HB. reflexivity.
Qed.

(** Reading past the end: padding bits are 0; past the last word it panics. *)
Lemma bm_get_past m bits i :
  bitmap_rel m bits -> length bits <= i ->
  bm_get m i = if i / 32 <? (length bits + 31) / 32 then Ok false else Panic.
Proof.
  intros (_ & _ & (HL & _ & HB) & _) Hi. unfold bm_get.
  destruct (Nat.ltb_spec (i / 32) ((length bits + 31) / 32)).
  - rewrite (nth_res_nth _ _ 0%N) by lia. cbn [bind]. rewrite HB.
    rewrite nth_overflow by lia. reflexivity.
  - unfold nth_res. destruct (nth_error (bm_words m) (i / 32)) eqn:E; [|reflexivity].
    assert (i / 32 < length (bm_words m)) by (apply nth_error_Some; congruence). lia.
Qed.

Lemma bm_rank_ok m bits i :
  bitmap_rel m bits -> i <= length bits ->
  bm_rank m i = Ok (count_occ Bool.bool_dec (firstn i bits) true).
Proof.
  intros (Hlen & Hk & HR & (HiL & HiB)) Hi. unfold bm_rank.
  rewrite Hlen, Hk. destruct (Nat.ltb_spec (length bits) i); [lia|].
  rewrite udiv_ok by lia. cbn [bind].
  assert (HL : length (bm_words m) = (length bits + 31) / 32) by apply HR.
  set (f := fun j => nth j bits false).
  set (blk := i / 32 / 4).
  assert (Ec : (if 0 <? blk then nth_res (bm_index m) (blk - 1) else Ok 0%N)
               = Ok (N.of_nat (cnt f (blk * 128)))).
  { destruct (Nat.ltb_spec 0 blk).
    - rewrite (nth_res_nth _ _ 0%N) by (unfold blk in *; lia).
      rewrite HiB by (unfold blk in *; lia). do 3 f_equal. lia.
    - replace blk with 0 by lia. reflexivity. }
  rewrite Ec. cbn [bind]. rewrite slice_res_ok by (unfold blk; lia). cbn [bind].
  rewrite Nat2N.id.
  pose proof (words_cnt_full (bm_words m) bits (blk * 4) (i / 32 - blk * 4) HR) as Hc.
  fold f in Hc. replace (blk * 4 * 32) with (blk * 128) in Hc by lia.
  rewrite <- Hc by (unfold blk; lia). replace (blk * 4 + (i / 32 - blk * 4)) with (i / 32) by (unfold blk; lia).
  rewrite <- cnt_firstn. fold f.
  destruct (Nat.ltb_spec 0 (i - i / 32 * 32)).
  - rewrite (nth_res_nth _ _ 0%N) by lia. cbn [bind]. f_equal.
    pose proof (words_cnt (bm_words m) bits (i / 32) (i - i / 32 * 32) HR) as Hw. fold f in Hw.
    rewrite <- Hw by lia. f_equal. lia.
  - do 2 f_equal. lia.
Qed.

Lemma bm_rank_past m bits i :
  bitmap_rel m bits -> length bits < i -> bm_rank m i = Panic.
Proof.
  intros (Hlen & _) Hi. unfold bm_rank. rewrite Hlen.
  destruct (Nat.ltb_spec (length bits) i); [reflexivity|lia].
Qed.

Lemma bm_rank0_ok m bits i :
  bitmap_rel m bits -> i <= length bits ->
  bm_rank0 m i = Ok (count_occ Bool.bool_dec (firstn i bits) false).
Proof.
  intros HR Hi. unfold bm_rank0. rewrite (bm_rank_ok m bits) by assumption. cbn [bind].
  assert (H : forall l, count_occ Bool.bool_dec l true + count_occ Bool.bool_dec l false = length l).
  { induction l as [|[|] l IH]; cbn [count_occ length];
      repeat (destruct Bool.bool_dec; try congruence); lia. }
  specialize (H (firstn i bits)). rewrite firstn_length_le in H by lia.
  rewrite usub_ok by lia. f_equal. lia.
Qed.
