(** * Appending to a variable: what its tree of spans reads and finds afterwards. *)
From Verif Require Import Base BaseFacts Spec GeomModel GeomProofs BitmapModel DacModel StreamModel StreamProofs ChunkModel ChunkStream ChunkReads
  NodeModel NodeProofs SuperModel SuperViews SuperProofs SuperInt ArrayModel ArrayProofs DatasetModel DatasetProofs.
Ltac Zify.zify_post_hook ::= Z.div_mod_to_equations.
Arguments Nat.pow : simpl never.

(** ** Reading and searching trees *)
Section Views.
  Variables (rows cols cs ss : nat) (enc : encoding) (d : nat) (V : store -> nat -> nat -> mmstruct -> Prop).
  Variable P : nat -> nat -> nat -> Z * nat -> Prop.
  Hypothesis Hcs : 1 <= cs.
  Hypothesis Hss : 2 <= ss.
  Hypothesis HV : forall st off n m, V st off n m ->
    exists f, view st d m n rows cols f /\ forall t r c, t < n -> r < rows -> c < cols -> P (off + t) r c (f t r c).
  Notation node := (node rows cols cs ss enc V).
  Notation strd := (strd cs ss).

  Lemma node_view : forall h st off n e m, functional st -> node h st off n e m ->
    exists f, view st (d + S h) m n rows cols f /\ forall t r c, t < n -> r < rows -> c < cols -> P (off + t) r c (f t r c).
  Proof.
    induction h as [|h IH]; intros st off n e m HF (s & -> & [W R C X Y] & Hn & H).
    - rewrite strd_0 in Y. destruct H as (_ & H1 & H2 & H3 & H4).
      destruct (span_view_glue st d s (fun t r c x => P (off + t) r c x)) as (f & Vf & HP).
      + rewrite Y. lia.
      + intros i Hi. rewrite Hn, Y in *. destruct (H4 i) as (c & m & E1 & E2 & WL & _ & HL).
        { apply Nat.lt_nge. intros L. assert (length (sp_spans s) * cs <= i * cs) by (apply Nat.mul_le_mono_r; exact L). lia. }
        destruct (HV _ _ _ _ (HL st (incl_refl _) HF)) as (f & Vf & HP).
        exists c, m, f. split; [unfold nth_res; rewrite E1; reflexivity|]. split; [exact E2|]. rewrite R, C.
        split; [exact Vf|]. intros t r c' Ht Hr Hc. rewrite Nat.add_assoc. apply HP; assumption.
      + exists f. rewrite Hn, R, C in Vf, HP. split; [|exact HP]. apply (view_le _ (S d)); [lia|exact Vf].
    - destruct H as (k & H1 & H2 & H3 & H4 & H5).
      destruct (span_view_glue st (d + S h) s (fun t r c x => P (off + t) r c x)) as (f & Vf & HP).
      + rewrite Y. pose proof (strd_pos cs ss Hcs Hss (S h)). lia.
      + intros i Hi. rewrite Hn, Y in *. pose proof (strd_pos cs ss Hcs Hss (S h)) as Sp. set (S' := strd (S h)) in *.
        assert (Hik : i <= k). { apply Nat.lt_succ_r, Nat.lt_nge. intros L. assert (S k * S' <= i * S') by (apply Nat.mul_le_mono_r; exact L). lia. }
        destruct (Nat.eq_dec i k) as [->|Nk].
        * destruct H5 as (c & m & E1 & E2 & HN). destruct (IH _ _ _ _ _ HF HN) as (f & Vf & HP).
          exists c, m, f. split; [unfold nth_res; rewrite E1; reflexivity|]. split; [exact E2|]. rewrite R, C.
          replace (sub_instants n S' k) with (n - k * S') by (unfold sub_instants; lia). split; [exact Vf|].
          intros t r c' Ht Hr Hc. rewrite Nat.add_assoc. apply HP; assumption.
        * destruct (H4 i ltac:(lia)) as (c & m & E1 & E2 & e' & HN). destruct (IH _ _ _ _ _ HF HN) as (f & Vf & HP).
          exists c, m, f. split; [unfold nth_res; rewrite E1; reflexivity|]. split; [exact E2|]. rewrite R, C.
          replace (sub_instants n S' i) with S'.
          2:{ unfold sub_instants. assert (S i * S' <= k * S') by (apply Nat.mul_le_mono_r; lia). lia. }
          split; [exact Vf|]. intros t r c' Ht Hr Hc. rewrite Nat.add_assoc. apply HP; assumption.
      + exists f. rewrite Hn, R, C in Vf, HP. split; [|exact HP]. apply (view_le _ (S (d + S h))); [lia|exact Vf].
  Qed.
End Views.

Section SearchViews.
  Variables (rows cols cs ss : nat) (enc : encoding) (d : nat) (V : store -> nat -> nat -> mmstruct -> Prop).
  Variables (g : nat -> nat -> nat -> Z) (Q : nat -> nat -> Prop).
  Hypothesis Hcs : 1 <= cs.
  Hypothesis Hss : 2 <= ss.
  Hypothesis HV : forall st off n m, V st off n m -> Q off n -> sview st d m n rows cols (later g off).
  Notation node := (node rows cols cs ss enc V).
  Notation strd := (strd cs ss).

  (** [Q] of the chunks in a tree of [n] instants that starts at [off]. *)
  Definition chunks_ok (off n : nat) : Prop := forall i, i * cs < n -> Q (off + i * cs) (Nat.min cs (n - i * cs)).

  Lemma chunks_ok_full off n i h : chunks_ok off n -> S i * strd h <= n -> chunks_ok (off + i * strd h) (strd h).
  Proof.
    intros H Hi j Hj. specialize (H (i * ss ^ h + j)). unfold DatasetProofs.strd in *.
    replace ((i * ss ^ h + j) * cs) with (i * (cs * ss ^ h) + j * cs) in H by lia. rewrite <- Nat.add_assoc.
    set (p := ss ^ h) in *. assert (j < p) by nia. assert (j * cs + cs <= cs * p) by nia.
    replace (Nat.min cs (cs * p - j * cs)) with cs by lia.
    replace (Nat.min cs (n - (i * (cs * p) + j * cs))) with cs in H by lia. apply H. lia.
  Qed.
  Lemma chunks_ok_last off n k h : chunks_ok off n -> k * strd h <= n -> chunks_ok (off + k * strd h) (n - k * strd h).
  Proof.
    intros H Hk j Hj. specialize (H (k * ss ^ h + j)). unfold DatasetProofs.strd in *.
    replace ((k * ss ^ h + j) * cs) with (k * (cs * ss ^ h) + j * cs) in H by lia. rewrite <- Nat.add_assoc.
    rewrite <- Nat.sub_add_distr. apply H. lia.
  Qed.

  Lemma node_sview : forall h st off n e m, functional st -> node h st off n e m -> chunks_ok off n ->
    sview st (d + S h) m n rows cols (later g off).
  Proof.
    induction h as [|h IH]; intros st off n e m HF (s & -> & [W R C X Y] & Hn & H) HQ.
    - rewrite strd_0 in Y. destruct H as (_ & H1 & H2 & H3 & H4).
      apply (sview_le _ (S d)); [lia|]. rewrite <- Hn, <- R, <- C. apply span_sview; [rewrite Y; lia|].
      intros i Hi. rewrite Hn, Y in *. destruct (H4 i) as (c & m & E1 & E2 & WL & _ & HL).
      { apply Nat.lt_nge. intros L. assert (length (sp_spans s) * cs <= i * cs) by (apply Nat.mul_le_mono_r; exact L). lia. }
      exists c, m. split; [unfold nth_res; rewrite E1; reflexivity|]. split; [exact E2|]. rewrite R, C.
      eapply sview_ext; [|apply (HV _ _ _ _ (HL st (incl_refl _) HF)); apply HQ; exact Hi].
      intros t r c' _ _ _. unfold later. rewrite Nat.add_assoc. reflexivity.
    - destruct H as (k & H1 & H2 & H3 & H4 & H5). pose proof (strd_pos cs ss Hcs Hss (S h)) as Sp.
      apply (sview_le _ (S (d + S h))); [lia|]. rewrite <- Hn, <- R, <- C. apply span_sview; [rewrite Y; lia|].
      intros i Hi. rewrite Hn, Y in *. set (S' := strd (S h)) in *.
      assert (Hik : i <= k). { apply Nat.lt_succ_r, Nat.lt_nge. intros L. assert (S k * S' <= i * S') by (apply Nat.mul_le_mono_r; exact L). lia. }
      destruct (Nat.eq_dec i k) as [->|Nk].
      + destruct H5 as (c & m & E1 & E2 & HN).
        exists c, m. split; [unfold nth_res; rewrite E1; reflexivity|]. split; [exact E2|]. rewrite R, C.
        replace (sub_instants n S' k) with (n - k * S') by (unfold sub_instants; lia).
        eapply sview_ext; [|apply (IH _ _ _ _ _ HF HN); eapply chunks_ok_last; [exact HQ|apply H3]].
        intros t r c' _ _ _. unfold later. rewrite Nat.add_assoc. reflexivity.
      + destruct (H4 i ltac:(lia)) as (c & m & E1 & E2 & e' & HN).
        assert (L : S i * S' <= n). { assert (S i * S' <= k * S') by (apply Nat.mul_le_mono_r; lia). lia. }
        exists c, m. split; [unfold nth_res; rewrite E1; reflexivity|]. split; [exact E2|]. rewrite R, C.
        replace (sub_instants n S' i) with S' by (unfold sub_instants; lia).
        eapply sview_ext; [|apply (IH _ _ _ _ _ HF HN); eapply chunks_ok_full; [exact HQ|exact L]].
        intros t r c' _ _ _. unfold later. rewrite Nat.add_assoc. reflexivity.
  Qed.
End SearchViews.

Lemma super_build_shape {A} hash (E : elem A) k lc levels g instants rows cols bits st st2 b : 2 <= k ->
  super_build hash E k lc levels g instants rows cols bits st = Ok (st2, b) -> mm_shape (mb_data b) = Ok (instants, rows, cols).
Proof.
  intros Hk H. destruct levels as [|level sub].
  { cbn [super_build] in H. destruct (negb _) in H; discriminate. }
  apply super_build_inv in H; [|exact Hk|intros; eapply super_build_incl; eassumption].
  destruct H as (_ & _ & st1 & tiles & s & max & min & _ & _ & _ & _ & _ & _ & _ & ->). reflexivity.
Qed.

(** Building adds to the end of the store. *)
Lemma foldM_extends {X S} (f : S -> X -> res S) (pr : S -> store) : (forall s x s', f s x = Ok s' -> extends (pr s) (pr s')) ->
  forall l s s', foldM f s l = Ok s' -> extends (pr s) (pr s').
Proof.
  intros Hf. induction l as [|x l IH]; intros s s' H; cbn [foldM] in H.
  - injection H as <-. apply extends_refl.
  - apply bind_inv in H. destruct H as (s1 & E1 & E2). eapply extends_trans; [apply (Hf _ _ _ E1)|apply (IH _ _ E2)].
Qed.
Lemma save_tiles_extends hash tiles : forall s, extends (ss_store s) (ss_store (fold_left (save_tile hash) tiles s)).
Proof.
  induction tiles as [|x tiles IH]; intros s; cbn [fold_left]; [apply extends_refl|].
  eapply extends_trans; [|apply IH]. unfold save_tile. destruct (snd x) as [b|]; [|apply extends_refl].
  unfold save. destruct (link_index _ _) as [i|]; eexists; reflexivity.
Qed.
Lemma super_build_extends {A} hash (E : elem A) k lc levels : forall g instants rows cols bits st st2 b,
  super_build hash E k lc levels g instants rows cols bits st = Ok (st2, b) -> extends st st2.
Proof.
  induction levels as [|level sub IH]; intros g instants rows cols bits st st2 b H; cbn [super_build] in H;
    destruct (negb _) in H; try discriminate.
  apply bind_inv in H. destruct H as (cs & _ & H). apply bind_inv in H. destruct H as ([st1 tiles] & E1 & H).
  assert (X1 : extends st st1).
  { apply (foldM_extends _ fst) in E1; [exact E1|]. clear -IH. intros [s0 t0] rc [s1 t1] H. unfold build_tile in H. cbn [fst].
    destruct (_ || _) in H; [injection H as <- _; apply extends_refl|].
    apply bind_inv in H. destruct H as (mm & _ & H). destruct (forallb _ _) in H; [injection H as <- _; apply extends_refl|].
    apply bind_inv in H. destruct H as (leaf & _ & H). apply bind_inv in H. destruct H as (b & _ & H).
    apply bind_inv in H. destruct H as ([s2 y] & E2 & H). injection H as <- _. cbn [fst]. destruct leaf.
    - apply bind_inv in E2. destruct E2 as (y' & _ & E2). injection E2 as <- _. apply extends_refl.
    - eapply IH. exact E2. }
  apply bind_inv in H. destruct H as (mx & _ & H). apply bind_inv in H. destruct H as (mn & _ & H).
  unfold save in H. apply bind_inv in H. destruct H as (d1 & _ & H). apply bind_inv in H. destruct H as (d2 & _ & H).
  injection H as <- _. eapply extends_trans; [exact X1|]. eapply extends_trans; [|eexists; reflexivity].
  apply (save_tiles_extends hash tiles (mkSave st1 [] [] 0 0 0 0)).
Qed.

(** ** The two models of building agree *)
Definition agrees {B} (r : res (store * B)) (p : store * res B) : Prop :=
  match r with
  | Ok (st', b) => p = (st', Ok b)
  | Err e => snd p = Err e | Panic => snd p = Panic | Diverge => snd p = Diverge
  end.
Lemma agrees_lift {X B} (x : res X) (f : X -> res (store * B)) (g : X -> op B) st :
  (forall a, x = Ok a -> agrees (f a) (g a st)) -> agrees (bind x f) (obind (olift x) g st).
Proof. intros H. unfold obind, olift. destruct x as [a| | |]; cbn [bind agrees snd]; auto. Qed.
Lemma agrees_bind {X B} (x : res (store * X)) (m : op X) (f : store * X -> res (store * B)) (g : X -> op B) st :
  agrees x (m st) -> (forall s a, x = Ok (s, a) -> agrees (f (s, a)) (g a s)) -> agrees (bind x f) (obind m g st).
Proof.
  intros H1 H2. unfold obind. destruct x as [[s a]| | |]; cbn [agrees bind] in *.
  - rewrite H1. apply H2. reflexivity.
  - destruct (m st) as [s r]. cbn [snd] in H1. subst r. reflexivity.
  - destruct (m st) as [s r]. cbn [snd] in H1. subst r. reflexivity.
  - destruct (m st) as [s r]. cbn [snd] in H1. subst r. reflexivity.
Qed.
Lemma agrees_fold {X S} (f : store * S -> X -> res (store * S)) (g : S -> X -> op S) :
  (forall st s x, agrees (f (st, s) x) (g s x st)) -> forall l st s, agrees (foldM f (st, s) l) (ofold g s l st).
Proof.
  intros H. induction l as [|x l IH]; intros st s; cbn [foldM ofold]; [reflexivity|].
  apply agrees_bind; [apply H|]. intros s' a _. apply IH.
Qed.

Lemma super_op_build {A} hash (E : elem A) k lc levels : forall g instants rows cols bits st,
  agrees (super_build hash E k lc levels g instants rows cols bits st) (super_op hash E k lc levels g instants rows cols bits st).
Proof.
  induction levels as [|level sub IH]; intros g instants rows cols bits st; cbn [super_build super_op];
    (destruct (negb _); [reflexivity|]); [reflexivity|].
  apply agrees_lift. intros cs _. apply agrees_bind.
  { apply agrees_fold. clear -IH. intros st ts rc. unfold build_tile, tile_op. destruct (_ || _); [reflexivity|].
    apply agrees_lift. intros mm _. destruct (forallb _ mm); [reflexivity|].
    apply agrees_lift. intros lf _. apply agrees_lift. intros b _.
    apply agrees_bind; [|intros s a _; reflexivity]. destruct lf; [|apply IH].
    destruct (leaf_build _ _ _ _ _ _ _ _) as [y| | |]; reflexivity. }
  intros s ts _. apply agrees_lift. intros mx _. apply agrees_lift. intros mn _. unfold finish_op.
  unfold save. apply agrees_lift. intros d1 _. apply agrees_lift. intros d2 _. reflexivity.
Qed.
Lemma super_op_ok {A} hash (E : elem A) k lc levels g instants rows cols bits st st2 b :
  super_build hash E k lc levels g instants rows cols bits st = Ok (st2, b) ->
  super_op hash E k lc levels g instants rows cols bits st = (st2, Ok b).
Proof. intros H. pose proof (super_op_build hash E k lc levels g instants rows cols bits st) as G. rewrite H in G. exact G. Qed.
Lemma super_op_inv {A} hash (E : elem A) k lc levels g instants rows cols bits st st2 b :
  super_op hash E k lc levels g instants rows cols bits st = (st2, Ok b) ->
  super_build hash E k lc levels g instants rows cols bits st = Ok (st2, b).
Proof.
  intros H. pose proof (super_op_build hash E k lc levels g instants rows cols bits st) as G. rewrite H in G.
  destruct (super_build _ _ _ _ _ _ _ _ _ _ _) as [[s x]| | |]; cbn [agrees snd] in G; congruence.
Qed.

Lemma mono_fold {S X} (f : S -> X -> op S) : (forall s x, mono (f s x)) -> forall l s, mono (ofold f s l).
Proof.
  intros H. induction l as [|x l IH]; intros s; cbn [ofold]; [apply mono_ret|]. apply mono_bind; [apply H|exact IH].
Qed.
Lemma mono_super_op {A} hash (E : elem A) k lc levels : forall g instants rows cols bits,
  mono (super_op hash E k lc levels g instants rows cols bits).
Proof.
  induction levels as [|level sub IH]; intros g instants rows cols bits; cbn [super_op]; (destruct (negb _); [apply mono_lift|]); [apply mono_lift|].
  apply mono_bind; [apply mono_lift|]. intros cs. apply mono_bind.
  { apply mono_fold. intros ts rc. unfold tile_op. destruct (_ || _); [apply mono_ret|].
    apply mono_bind; [apply mono_lift|]. intros mm. destruct (forallb _ mm); [apply mono_ret|].
    apply mono_bind; [apply mono_lift|]. intros lf. apply mono_bind; [apply mono_lift|]. intros b.
    apply mono_bind; [destruct lf; [apply mono_lift|apply IH]|]. intros; apply mono_ret. }
  intros ts. apply mono_bind; [apply mono_lift|]. intros mx. apply mono_bind; [apply mono_lift|]. intros mn st.
  unfold finish_op, save. eapply extends_trans; [apply (save_tiles_extends hash ts (mkSave st [] [] 0 0 0 0))|].
  eapply extends_trans; [eexists; reflexivity|].
  apply (mono_bind (olift (dac_of mx))); [apply mono_lift|]. intros d1. apply mono_bind; [apply mono_lift|]. intros d2. apply mono_ret.
Qed.

(** ** The end of a tree *)
Section Tail.
  Variables (rows cols cs ss : nat) (enc : encoding) (leaf_ok : store -> nat -> nat -> mmstruct -> Prop).
  Hypothesis Hcs : 1 <= cs.
  Hypothesis Hss : 2 <= ss.
  Notation tree := (tree rows cols cs ss enc leaf_ok).

  (** The last chunk. *)
  Lemma ok_tail_data st root T e : functional st -> tree st root T e ->
    ok_in (tail_data cs root) st (fun o st' => st' = st /\
      match o with
      | Some m => e mod cs <> 0 /\ e mod cs <= T /\ leaf rows cols leaf_ok st (T - e mod cs) (e mod cs) m
      | None => e mod cs = 0
      end).
  Proof.
    intros HF HT. unfold tail_data.
    eapply ok_bind; [apply mono_tail_spans| |apply (ok_tail_spans rows cols cs ss enc leaf_ok Hcs Hss st HF root T e HT)|].
    { intros [|l rest]; mono_auto. }
    intros l st1 _ _ (-> & m0 & rest & lo & -> & HN & HR & E).
    destruct HN as (s & -> & [W R C X Y] & Hn & _ & H1 & H2 & H3 & H4).
    apply (ok_lift_bind _ _ s); [reflexivity|]. set (len := length (sp_spans s)) in *.
    destruct (Nat.eqb_spec len 0) as [L0|L0].
    - apply ok_ret. split; [reflexivity|]. assert (He : e = 0) by nia. rewrite He. apply Nat.mod_0_l. lia.
    - destruct (H4 (len - 1) ltac:(lia)) as (c & m & E1 & E2 & E3).
      apply (ok_lift_bind _ _ c). { unfold span_last. rewrite usub_ok by (fold len; lia). cbn [bind]. fold len. unfold nth_res. rewrite E1. reflexivity. }
      apply (ok_load_bind _ _ m); [exact E2|].
      set (p := sub_instants e cs (len - 1)) in *. assert (Hp : p = e - (len - 1) * cs /\ 1 <= p <= cs) by (unfold p, sub_instants; nia).
      pose proof E3 as (_ & E4 & _).
      apply (ok_lift_bind _ _ p). { unfold instants_of. rewrite E4. reflexivity. }
      apply ok_ret. split; [reflexivity|].
      destruct (Nat.ltb_spec p cs) as [Lp|Lp].
      + assert (Em : e mod cs = p). { replace e with (p + (len - 1) * cs) by lia. rewrite Nat.mod_add by lia. apply Nat.mod_small. exact Lp. }
        rewrite Em. destruct Hp as (Hp1 & Hp2). split; [clear -Hp2; lia|]. split; [clear -Hp1 Hp2 E; lia|].
        clearbody p. revert E3 Hp1. generalize ((len - 1) * cs). intros x E3 Hp1.
        replace (T - p) with (lo + x) by (clear -Hp1 Hp2 E; lia). exact E3.
      + replace e with (len * cs) by nia. apply Nat.mod_mul. lia.
  Qed.

  Lemma rest_multiple ex st : forall rest h lo, rest_ok rows cols cs ss enc leaf_ok ex st h lo rest -> exists j, lo = j * cs.
  Proof.
    intros rest. revert ex. induction rest as [|p rest IH]; intros ex h lo; cbn [rest_ok].
    - intros ->. exists 0. reflexivity.
    - intros (s & k & lo' & _ & _ & _ & _ & -> & _ & _ & _ & H). destruct (IH _ _ _ H) as (j & ->).
      exists (j + k * ss ^ S h). unfold strd. ring.
  Qed.
  Lemma tree_multiple st root T e : functional st -> tree st root T e -> exists j, T = j * cs + e mod cs /\ e mod cs <= T.
  Proof.
    intros HF HT. destruct (tail_spans_ok rows cols cs ss enc leaf_ok Hcs Hss st HF root T e HT) as (m0 & rest & lo & _ & _ & HR & E).
    destruct (rest_multiple _ _ _ _ _ HR) as (j & Hj). exists (j + e / cs).
    pose proof (Nat.div_mod e cs ltac:(lia)) as Hd. rewrite Nat.mul_add_distr_r. revert Hd.
    generalize (e / cs) (e mod cs). intros q p Hd. clear -Hj Hd E. nia.
  Qed.

End Tail.

(** ** Appending *)
Section Append.
  Context {A : Type}.
  Variables (hash : bytes -> cid) (lc : nat -> nat) (D : dtype A) (order : list call -> list call) (fuel : nat).
  (** The same value, as far as reads can tell. *)
  Variable eqv : A -> A -> Prop.
  Variables (rows cols cs ss : nat) (levels : list nat) (enc : encoding) (round : option nat).
  Hypothesis Hhash : forall b, wf_cid (hash b).
  Hypothesis Horder : forall l, Permutation l (order l).
  Hypothesis Hfuel : S (length levels) <= fuel.
  Hypothesis Hr : 0 < rows.
  Hypothesis Hc : 0 < cols.
  Hypothesis Hcs : 1 <= cs.
  Hypothesis Hss : 2 <= ss.
  Hypothesis Fr : fits32 rows.
  Hypothesis Fc : fits32 cols.
  Hypothesis Fcs : fits32 cs.
  Hypothesis Fss : fits32 ss.
  Variable N : nat.
  Hypothesis FN : fits32 N.
  Hypothesis eqv_trans : forall x y z, eqv x y -> eqv y z -> eqv x z.
  Hypothesis eqv_sym : forall x y, eqv x y -> eqv y x.

  (** Two series of rasters with the same values. *)
  Definition same (g g' : nat -> nat -> nat -> A) (n : nat) : Prop :=
    forall t r c, t < n -> r < rows -> c < cols -> eqv (g t r c) (g' t r c).

  (** Chunks that can be built, and what is known of a chunk built from [g]. *)
  Variable chunk_ok : (nat -> nat -> nat -> A) -> nat -> Prop.
  Variable V0 : (nat -> nat -> nat -> A) -> store -> nat -> mmstruct -> Prop.
  Hypothesis chunk_ok_same : forall g g' n, same g g' n -> chunk_ok g n -> chunk_ok g' n.
  Hypothesis V0_same : forall g g' st n m, same g g' n -> V0 g st n m -> V0 g' st n m.
  Hypothesis V0_view : forall g st n m, V0 g st n m ->
    exists f, view st (S (length levels)) m n rows cols f /\
      forall t r c, t < n -> r < rows -> c < cols -> eqv (rd_set (dt_reader D) (snd (f t r c)) (fst (f t r c))) (g t r c).
  Hypothesis Hbuild : forall g n st, 1 <= n <= cs -> chunk_ok g n ->
    exists st2 b bits, el_bits (dt_elem D round) (dt_bits D round) (all_values g n rows cols) = Ok bits /\
      super_build hash (dt_elem D round) 2 lc levels g n rows cols bits st = Ok (st2, b) /\
      incl st st2 /\ (anchored st2 (NMM (mb_data b)) /\ grown st st2) /\ mm_shape (mb_data b) = Ok (n, rows, cols) /\
      forall st', incl st2 st' -> functional st' -> V0 g st' n (mb_data b).

  (** What the variable is to hold. *)
  Variable G : nat -> nat -> nat -> A.
  Definition leaf_ok (st : store) (off n : nat) (m : mmstruct) : Prop := V0 (fun t => G (off + t)) st n m.
  Notation tree := (tree rows cols cs ss enc leaf_ok).

  Lemma mono_build v data a b : mono (build_chunk hash lc D v data a b).
  Proof.
    unfold build_chunk. destruct (a3_shape data) as [[n h] w].
    apply mono_bind; [apply mono_lift|]. intros bits. apply mono_bind; [apply mono_super_op|]. intros; apply mono_ret.
  Qed.
  Lemma mono_read_tail m : mono (read_tail D order fuel m).
  Proof. intros st. apply extends_refl. Qed.
  Lemma mono_append d name data : mono (dataset_append hash lc D order fuel d name data).
  Proof.
    unfold dataset_append. destruct (find_var name (ds_vars d)) as [v|]; [|apply mono_lift].
    apply mono_bind; [apply mono_tail_data|]. intros tail. apply mono_bind; [|intros; apply mono_ret].
    destruct tail as [m|].
    - apply mono_bind; [apply mono_read_tail|]. intros a. apply mono_bind; [apply mono_lift|]. intros a'.
      destruct (a3_shape a') as [[n h] w]. apply mono_var_append. intros; apply mono_build.
    - destruct (a3_shape data) as [[n h] w]. apply mono_var_append. intros; apply mono_build.
  Qed.

  (** The contents of the last chunk. *)
  Lemma ok_read_tail st off n m : functional st -> 1 <= n -> leaf rows cols leaf_ok st off n m ->
    ok_in (read_tail D order fuel m) st (fun a st' => st' = st /\ a3_shape a = (n, rows, cols) /\
      same (a3_at a) (fun t => G (off + t)) n).
  Proof.
    intros HF Hn (W & Sh & HV). destruct (V0_view _ _ _ _ (HV st (incl_refl _) HF)) as (f & [V1 V2 V3 V4] & HP).
    destruct (V4 fuel 0 n 0 rows 0 cols Hfuel) as (out & Eo & Po); [lia|lia|unfold window_in; lia|].
    pose proof (Permutation_trans (Permutation_sym Po) (Horder out)) as P2.
    destruct (run3_spec (dt_reader D) (order out) (mkArray3 (n, rows, cols) (fun _ _ _ => rd_zero (dt_reader D))) n rows cols eq_refl) as (a & Er & L & Wr & _).
    - eapply Permutation_NoDup; [apply Permutation_map; exact P2|]. apply window3_nodup.
    - intros t r c v Hx. apply (Permutation_in _ (Permutation_sym P2)) in Hx. apply window3_in in Hx. lia.
    - intros _. unfold read_tail. cbn [fst snd]. rewrite Sh. cbn [bind]. rewrite Eo. cbn [bind]. rewrite Er.
      exists a. split; [reflexivity|]. split; [|apply grown_refl]. split; [reflexivity|]. split; [exact L|]. intros t r c Ht Hr' Hc'.
      rewrite (Wr t r c (fst (f t r c)) (snd (f t r c))); [apply HP; assumption|].
      apply (Permutation_in _ P2). apply window3_in. repeat split; try lia. cbn [Nat.add]. destruct (f t r c); reflexivity.
  Qed.

  (** Chunks of the data. *)
  Lemma ok_build v data base n st start len : va_round v = round -> va_levels v = levels ->
    a3_shape data = (n, rows, cols) -> 1 <= len <= cs -> start + len <= n ->
    same (fun t => a3_at data (start + t)) (fun t => G (base + start + t)) len ->
    chunk_ok (fun t => G (base + start + t)) len ->
    ok_in (build_chunk hash lc D v data start len) st (fun m st' => leaf rows cols leaf_ok st' (base + start) len m).
  Proof.
    intros Er El Es Hlen Hb HS HC _. unfold build_chunk. rewrite Es, Er, El.
    assert (HC' : chunk_ok (fun t => a3_at data (start + t)) len).
    { eapply chunk_ok_same; [|exact HC]. intros t r c H1 H2 H3. apply eqv_sym. apply HS; assumption. }
    destruct (Hbuild _ len st Hlen HC') as (st2 & b & bits & E1 & E2 & HI & (W & HW) & Sh & HV).
    rewrite E1. unfold obind, olift, oret. rewrite (super_op_ok _ _ _ _ _ _ _ _ _ _ _ _ _ E2). cbn [fst snd]. exists (mb_data b). split; [reflexivity|]. split; [|exact HW]. split; [exact W|]. split; [exact Sh|].
    intros st' HI' HF'. unfold leaf_ok. eapply V0_same; [exact HS|]. apply HV; assumption.
  Qed.

  (** All chunks of what the variable is to hold. *)
  Definition G_ok (T : nat) : Prop := forall i, i * cs < T -> chunk_ok (fun t => G (i * cs + t)) (Nat.min cs (T - i * cs)).

  Lemma ok_var st v data base n T e (upd : bool) : functional st ->
    va_round v = round -> va_levels v = levels -> va_chunk_size v = cs -> va_span_size v = ss -> va_enc v = enc ->
    tree st (va_cid v) T e -> a3_shape data = (n, rows, cols) ->
    T = base + (if upd then e mod cs else 0) -> (if upd then e mod cs <> 0 /\ e mod cs <= n else e mod cs = 0) ->
    (exists j, base = j * cs) ->
    same (a3_at data) (fun t => G (base + t)) n -> G_ok (base + n) -> base + n <= N -> (e = 0 -> T = 0) ->
    ok_in (var_append hash (build_chunk hash lc D v data) v n rows cols upd) st (fun c st' => exists e', tree st' c (base + n) e' /\ (e' = 0 -> base + n = 0)).
  Proof.
    intros HF Er El Ecs Ess Eenc HT Es HT1 HT2 (j & Hj) HS HG HN He0.
    apply (ok_var_append hash rows cols cs ss enc leaf_ok Hhash Hcs Hss Fr Fc Fcs Fss N FN v (build_chunk hash lc D v data) base n
      Ecs Ess Eenc (mono_build v data)) with (T := T) (e := e); auto.
    intros st1 start len _ (i & Hi) Hst Hlen.
    apply (ok_build v data base n); auto; [clear -Hlen Hst Hcs; lia|clear -Hlen Hst; lia| |].
    - intros t r c Ht Hr' Hc'. rewrite <- Nat.add_assoc. apply HS; auto. clear -Ht Hlen Hst; lia.
    - specialize (HG (j + i)). replace ((j + i) * cs) with (base + start) in HG by (clear -Hj Hi; lia).
      replace len with (Nat.min cs (base + n - (base + start))) by (clear -Hlen; lia). apply HG. clear -Hst; lia.
  Qed.

  Lemma ok_dataset_append d name v data n T e st : functional st -> find_var name (ds_vars d) = Some v ->
    va_round v = round -> va_levels v = levels -> va_chunk_size v = cs -> va_span_size v = ss -> va_enc v = enc ->
    tree st (va_cid v) T e -> a3_shape data = (n, rows, cols) ->
    same (a3_at data) (fun t => G (T + t)) n -> G_ok (T + n) -> T + n <= N -> (e = 0 -> T = 0) ->
    ok_in (dataset_append hash lc D order fuel d name data) st (fun d' st' => exists c e',
      d' = mkDataset (ds_coords d) (replace_var (with_var_cid v c) (ds_vars d)) (ds_rows d) (ds_cols d) None (next_prev d) /\
      tree st' c (T + n) e' /\ (e' = 0 -> T + n = 0)).
  Proof.
    intros HF Hv Er El Ecs Ess Eenc HT Es HS HG HN He0. unfold dataset_append. rewrite Hv, Ecs.
    destruct (tree_multiple rows cols cs ss enc leaf_ok Hcs Hss st _ T e HF HT) as (j & Hj & Hm).
    assert (Mb : forall data0, mono (let '(n0, rows0, cols0) := a3_shape data0 in var_append hash (build_chunk hash lc D v data0) v n0 rows0 cols0 true)).
    { intros data0. destruct (a3_shape data0) as [[n0 h0] w0]. apply mono_var_append. intros; apply mono_build. }
    eapply ok_bind; [apply mono_tail_data| |apply (ok_tail_data rows cols cs ss enc leaf_ok Hcs Hss st _ T e HF HT)|].
    { intros tail. apply mono_bind; [|intros; apply mono_ret]. destruct tail as [m|].
      - apply mono_bind; [apply mono_read_tail|]. intros a. apply mono_bind; [apply mono_lift|exact Mb].
      - destruct (a3_shape data) as [[n0 h0] w0]. apply mono_var_append. intros; apply mono_build. }
    intros tail st1 _ _ (-> & Ht).
    apply (ok_bind _ _ _ (fun c st' => exists e', tree st' c (T + n) e' /\ (e' = 0 -> T + n = 0))).
    { destruct tail as [m|].
      - apply mono_bind; [apply mono_read_tail|]. intros a. apply mono_bind; [apply mono_lift|exact Mb].
      - destruct (a3_shape data) as [[n0 h0] w0]. apply mono_var_append. intros; apply mono_build. }
    { intros; apply mono_ret. }
    - destruct tail as [m|].
      + destruct Ht as (Hp & HpT & HL). set (p := e mod cs) in *.
        eapply ok_bind; [apply mono_read_tail| |apply (ok_read_tail st (T - p) p m HF); [lia|exact HL]|].
        { intros a. apply mono_bind; [apply mono_lift|exact Mb]. }
        intros a st1 _ _ (-> & Ea & Ha). unfold join3 at 1. rewrite Ea, Es, !Nat.eqb_refl. cbn [andb].
        apply (ok_lift_bind _ _ (mkArray3 (p + n, rows, cols) (fun t r c => if t <? p then a3_at a t r c else a3_at data (t - p) r c))); [reflexivity|].
        cbn [a3_shape]. eapply ok_post; [apply mono_var_append; intros; apply mono_build| |].
        * apply (ok_var st v _ (T - p) (p + n) T e true); auto; cbn [a3_shape a3_at]; try (fold p; clear -Hp HpT; lia).
          -- fold p. exists j. lia.
          -- intros t r c Ht Hr' Hc'. cbn [a3_at]. destruct (Nat.ltb_spec t p) as [L|L]; [apply Ha; assumption|].
             replace (T - p + t) with (T + (t - p)) by (clear -HpT L; lia). apply HS; auto. clear -Ht L; lia.
          -- replace (T - p + (p + n)) with (T + n) by (clear -HpT; lia). exact HG.
          -- clear -HpT HN. lia.
        * intros c st' _ _ (e' & HT'). exists e'. replace (T - p + (p + n)) with (T + n) in HT' by (clear -HpT; lia). exact HT'.
      + rewrite Es. apply (ok_var st v data T n T e false); auto. exists j. rewrite Hj at 1. rewrite Ht. apply Nat.add_0_r.
    - intros c st' HI HF' (e' & HT'). apply ok_ret. exists c, e'. split; [reflexivity|exact HT'].
  Qed.

  (** A new variable. *)
  Lemma ok_add d name st : ds_rows d = rows -> ds_cols d = cols ->
    ok_in (add_variable hash d name round ss cs levels enc) st (fun d' st' => exists c,
      d' = mkDataset (ds_coords d) (ds_vars d ++ [mkVar name round ss cs levels enc c]) (ds_rows d) (ds_cols d) None (next_prev d) /\
      tree st' c 0 0).
  Proof.
    intros E1 E2. unfold add_variable. rewrite E1, E2. eapply ok_bind; [apply mono_save|intros; apply mono_ret| |].
    - apply (ok_save _ _ _ (fun c st' => tree st' c 0 0)); [|exact Hhash|].
      + split; [split; [|exact I]|intros x []]. apply (so_wf rows cols cs ss enc 0). rewrite <- (strd_0 cs ss) at 2. apply (span_new_of rows cols cs ss enc Fr Fc). rewrite strd_0. exact Fcs.
      + intros c st' HI HF Wc Gc. split; [exact Wc|]. exists (MSpan (span_new rows cols cs enc)), 0. split; [exact Gc|]. split; [|left; reflexivity].
        exists (span_new rows cols cs enc). split; [reflexivity|]. split.
        { rewrite <- (strd_0 cs ss) at 2. apply (span_new_of rows cols cs ss enc Fr Fc). rewrite strd_0. exact Fcs. }
        split; [reflexivity|]. cbn [span_new sp_spans length]. repeat (split; [clear -Hcs; lia|]). intros i Hi. clear -Hi; lia.
    - intros c st' _ _ HT. apply ok_ret. exists c. split; [reflexivity|exact HT].
  Qed.

  (** What is read. *)
  Lemma tree_reads st root T e : tree st root T e -> exists m h, get_mm st root = Ok m /\ mm_shape m = Ok (T, rows, cols) /\ mm_encoding m = enc /\
    forall st', incl st st' -> functional st' -> get_mm st' root = Ok m /\ exists f, view st' (S (length levels) + S h) m T rows cols f /\
      forall t r c, t < T -> r < rows -> c < cols -> eqv (rd_set (dt_reader D) (snd (f t r c)) (fst (f t r c))) (G t r c).
  Proof.
    intros (W & m & h & Gm & HN & _). exists m, h. split; [exact Gm|]. split; [eapply node_shape; exact HN|].
    split; [destruct (node_span _ _ _ _ _ _ _ _ _ _ _ _ HN) as (s & -> & [A1 A2 A3 A4 A5] & _); exact A4|].
    intros st' HI HF. split; [eapply get_mm_incl; eassumption|].
    apply (node_incl _ _ _ _ _ _ _ _ HI HF) in HN.
    destruct (node_view rows cols cs ss enc (S (length levels)) leaf_ok
      (fun t r c x => eqv (rd_set (dt_reader D) (snd x) (fst x)) (G t r c)) Hcs Hss) with (2 := HF) (3 := HN) as (f & Vf & HP).
    - intros st1 off n m1 H. unfold leaf_ok in H. destruct (V0_view _ _ _ _ H) as (f & Vf & HP). exists f. split; [exact Vf|exact HP].
    - exists f. split; [exact Vf|exact HP].
  Qed.
End Append.
