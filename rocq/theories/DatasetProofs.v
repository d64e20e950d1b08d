(** * Trees of spans: what appending to a variable leaves in the store. *)
From Verif Require Import Base BaseFacts Spec GeomModel GeomProofs BitmapModel DacModel StreamModel StreamProofs ChunkModel ChunkStream
  NodeModel NodeProofs SuperModel SuperViews SuperProofs SuperInt ArrayModel ArrayProofs DatasetModel.
Ltac Zify.zify_post_hook ::= Z.div_mod_to_equations.
Arguments Nat.pow : simpl never.

(** ** Operations that only add to the store *)
Definition extends (st st' : store) : Prop := exists l, st' = st ++ l.
Lemma extends_refl st : extends st st.
Proof. exists []. rewrite app_nil_r. reflexivity. Qed.
Lemma extends_trans st1 st2 st3 : extends st1 st2 -> extends st2 st3 -> extends st1 st3.
Proof. intros [l ->] [l' ->]. exists (l ++ l'). symmetry. apply app_assoc. Qed.
Lemma extends_incl st st' : extends st st' -> incl st st'.
Proof. intros [l ->]. apply incl_appl, incl_refl. Qed.

Definition mono {A} (m : op A) : Prop := forall st, extends st (fst (m st)).
Lemma mono_incl {A} (m : op A) st : mono m -> incl st (fst (m st)).
Proof. intros H. apply extends_incl, H. Qed.

Lemma mono_ret {A} (x : A) : mono (oret x).
Proof. intros st. apply extends_refl. Qed.
Lemma mono_lift {A} (x : res A) : mono (olift x).
Proof. intros st. apply extends_refl. Qed.
Lemma mono_load c : mono (oload c).
Proof. intros st. apply extends_refl. Qed.
Lemma mono_save hash n : mono (osave hash n).
Proof. intros st. unfold osave, save. eexists. reflexivity. Qed.
Lemma mono_bind {A B} (m : op A) (f : A -> op B) : mono m -> (forall x, mono (f x)) -> mono (obind m f).
Proof.
  intros Hm Hf st. specialize (Hm st). unfold obind. destruct (m st) as [st1 r]. cbn [fst] in Hm.
  destruct r as [x| | |]; try exact Hm. eapply extends_trans; [exact Hm|apply Hf].
Qed.
Lemma mono_if {A} (b : bool) (m1 m2 : op A) : mono m1 -> mono m2 -> mono (if b then m1 else m2).
Proof. destruct b; trivial. Qed.

Ltac mono_auto :=
  repeat first
    [ apply mono_bind | apply mono_ret | apply mono_lift | apply mono_load | apply mono_save | apply mono_if | assumption
    | match goal with |- forall _, _ => intros ? | |- mono (let '(_, _) := ?p in _) => destruct p | |- mono (match ?p with [] => _ | _ :: _ => _ end) => destruct p end ].

(** [ok_in m st post]: if no two objects in the store that [m] leaves have the same
    identifier, [m] succeeds, with [post] of its result and the store it leaves, and
    adds only proper nodes to the store. *)
Definition ok_in {A} (m : op A) (st : store) (post : A -> store -> Prop) : Prop :=
  functional (fst (m st)) -> exists x, snd (m st) = Ok x /\ post x (fst (m st)) /\ grown st (fst (m st)).

Lemma ok_ret {A} (x : A) st (post : A -> store -> Prop) : post x st -> ok_in (oret x) st post.
Proof. intros H _. exists x. split; [reflexivity|]. split; [exact H|apply grown_refl]. Qed.
Lemma ok_lift {A} (r : res A) x st (post : A -> store -> Prop) : r = Ok x -> post x st -> ok_in (olift r) st post.
Proof. intros -> H _. exists x. split; [reflexivity|]. split; [exact H|apply grown_refl]. Qed.
Lemma ok_bind {A B} (m : op A) (f : A -> op B) st mid post : mono m -> (forall x, mono (f x)) ->
  ok_in m st mid ->
  (forall x st1, incl st st1 -> functional st1 -> mid x st1 -> ok_in (f x) st1 post) ->
  ok_in (obind m f) st post.
Proof.
  intros Mm Mf Hm Hf HF. unfold ok_in, obind in *. pose proof (mono_incl m st Mm) as Mi. destruct (m st) as [st1 r] eqn:E. cbn [fst snd] in *.
  assert (F1 : functional st1).
  { eapply functional_incl; [|exact HF]. destruct r as [x| | |]; try apply incl_refl. apply mono_incl, Mf. }
  destruct (Hm F1) as (x & -> & Hmid & W). destruct (Hf x st1 Mi F1 Hmid HF) as (y & E2 & P2 & W2). exists y. split; [exact E2|]. split; [exact P2|exact (grown_trans _ _ _ W W2)].
Qed.
(** A step whose result is known. *)
Lemma ok_lift_bind {A B} (r : res A) (f : A -> op B) x st post : r = Ok x -> ok_in (f x) st post -> ok_in (obind (olift r) f) st post.
Proof. intros -> H. exact H. Qed.
Lemma ok_load_bind {B} c (f : mmstruct -> op B) m st post : get_mm st c = Ok m -> ok_in (f m) st post -> ok_in (obind (oload c) f) st post.
Proof. intros E H. unfold ok_in, obind, oload in *. rewrite E. exact H. Qed.
Lemma ok_post {A} (m : op A) st (post post' : A -> store -> Prop) : mono m ->
  ok_in m st post -> (forall x st', incl st st' -> functional st' -> post x st' -> post' x st') -> ok_in m st post'.
Proof. intros M H K HF. destruct (H HF) as (x & E & P & W). exists x. split; [exact E|]. split; [|exact W]. apply K; auto. apply mono_incl, M. Qed.

Lemma ok_save hash m st (post : cid -> store -> Prop) : anchored st (NMM m) -> (forall b, wf_cid (hash b)) ->
  (forall c st', incl st st' -> functional st' -> wf_cid c -> get_mm st' c = Ok m -> post c st') ->
  ok_in (osave hash (NMM m)) st post.
Proof.
  intros W Hh H HF. unfold osave in *. pose proof (save_in hash st (NMM m)) as HI. pose proof (save_incl hash st (NMM m)) as HN.
  pose proof (grown_save hash st (NMM m) W) as HWr.
  unfold save in *. cbn [fst snd] in *. eexists. split; [reflexivity|]. split; [|exact HWr]. apply H; auto.
  unfold get_mm. rewrite (retrieve_saved _ hash (NMM m) (proj1 (proj1 W)) HF HI). reflexivity.
Qed.

Lemma mono_span_append hash s m : mono (span_append hash s m).
Proof. unfold span_append. mono_auto. Qed.
Lemma mono_span_update hash s m : mono (span_update hash s m).
Proof. apply mono_span_append. Qed.
Lemma mono_tail_loop cs : forall fuel m anc, mono (tail_loop fuel cs m anc).
Proof. induction fuel as [|fuel IH]; intros m anc; cbn [tail_loop]; mono_auto. apply IH. Qed.
Lemma mono_tail_spans cs c : mono (tail_spans cs c).
Proof. unfold tail_spans. do 2 (apply mono_bind; [first [apply mono_load|apply mono_lift]|intros ?]). apply mono_tail_loop. Qed.
Lemma mono_update_up hash : forall spans m, mono (update_up hash m spans).
Proof. induction spans as [|p rest IH]; intros m; cbn [update_up]; mono_auto. apply IH. Qed.
Lemma mono_save_spans hash spans : mono (save_spans hash spans).
Proof. unfold save_spans. destruct spans as [|m rest]; [apply mono_lift|]. apply mono_bind; [apply mono_update_up|intros x; apply mono_save]. Qed.
Lemma mono_open_loop hash ss rows cols enc : forall spans s l, mono (open_loop hash ss rows cols enc s l spans).
Proof. induction spans as [|p rest IH]; intros s l; cbn [open_loop]; mono_auto. apply IH. Qed.
Lemma mono_create_open_span hash ss cs rows cols enc c : mono (create_open_span hash ss cs rows cols enc c).
Proof.
  unfold create_open_span. apply mono_bind; [apply mono_tail_spans|]. intros [|l rest]; [apply mono_lift|].
  apply mono_bind; [apply mono_open_loop|]. intros [s a]. apply mono_bind; [apply mono_update_up|intros x; apply mono_save].
Qed.
Lemma mono_tail_data cs c : mono (tail_data cs c).
Proof. unfold tail_data. apply mono_bind; [apply mono_tail_spans|]. intros [|l rest]; mono_auto. Qed.
Lemma mono_append_step hash build v instants rows cols x start : (forall a b, mono (build a b)) ->
  mono (append_step hash build v instants rows cols x start).
Proof.
  intros Hb. unfold append_step. destruct x as [[root spans] upd]. apply mono_bind; [apply Hb|]. intros chunk.
  destruct spans as [|m rest]; [apply mono_lift|]. apply mono_bind; [apply mono_lift|]. intros s.
  apply mono_bind.
  - apply mono_if; [|apply mono_ret]. apply mono_bind; [apply mono_save_spans|]. intros r1.
    apply mono_bind; [apply mono_create_open_span|]. intros r2. apply mono_bind; [apply mono_tail_spans|].
    intros [|m' rest']; mono_auto.
  - intros [[r s'] rest']. mono_auto.
Qed.
Lemma mono_ofold {S X} (f : S -> X -> op S) : (forall s x, mono (f s x)) -> forall l s, mono (ofold f s l).
Proof. intros Hf. induction l as [|x l IH]; intros s; cbn [ofold]; [apply mono_ret|]. apply mono_bind; [apply Hf|exact IH]. Qed.
Lemma mono_var_append hash build v instants rows cols upd : (forall a b, mono (build a b)) ->
  mono (var_append hash build v instants rows cols upd).
Proof.
  intros Hb. unfold var_append. apply mono_bind; [apply mono_tail_spans|]. intros spans. apply mono_bind; [apply mono_lift|]. intros l.
  apply mono_bind; [apply mono_ofold; intros s x; apply mono_append_step; exact Hb|]. intros [[r sp] u]. apply mono_save_spans.
Qed.

(** ** Trees of spans *)
Section Tree.
  Variables (hash : bytes -> cid) (rows cols cs ss : nat) (enc : encoding).
  (** What a chunk must satisfy, given its first instant and the number of its instants. *)
  Variable V : store -> nat -> nat -> mmstruct -> Prop.
  Hypothesis Hhash : forall b, wf_cid (hash b).
  Hypothesis Hcs : 1 <= cs.
  Hypothesis Hss : 2 <= ss.
  Hypothesis Fr : fits32 rows.
  Hypothesis Fc : fits32 cols.
  Hypothesis Fcs : fits32 cs.
  Hypothesis Fss : fits32 ss.
  (** No tree holds more instants than this. *)
  Variable N : nat.
  Hypothesis FN : fits32 N.

  (** The instants in each child of a span of height [h]. *)
  Definition strd (h : nat) : nat := cs * ss ^ h.
  Lemma strd_S h : strd (S h) = ss * strd h.
  Proof. unfold strd. rewrite Nat.pow_succ_r'. ring. Qed.
  Lemma strd_pos h : 1 <= strd h.
  Proof using Hcs Hss. clear -Hcs Hss. unfold strd. assert (ss ^ h <> 0) by (apply Nat.pow_nonzero; lia). nia. Qed.
  Lemma strd_gt h : cs < strd (S h).
  Proof using Hcs Hss. clear -Hcs Hss. rewrite strd_S. pose proof (strd_pos h). unfold strd in *. assert (ss ^ h <> 0) by (apply Nat.pow_nonzero; lia). nia. Qed.
  Lemma strd_0 : strd 0 = cs.
  Proof. unfold strd. rewrite Nat.pow_0_r. apply Nat.mul_1_r. Qed.

  (** A chunk with [n] instants, the first of which is instant [off]. *)
  Definition leaf (st : store) (off n : nat) (m : mmstruct) : Prop :=
    anchored st (NMM m) /\ mm_shape m = Ok (n, rows, cols) /\
    forall st', incl st st' -> functional st' -> V st' off n m.

  Definition child (st : store) (s : span) (i : nat) (Q : mmstruct -> Prop) : Prop :=
    exists c m, nth_error (sp_spans s) i = Some c /\ get_mm st c = Ok m /\ Q m.

  (** What all spans have. *)
  Record span_of (h : nat) (s : span) : Prop :=
    { so_wf : wf_span s; so_rows : sp_rows s = rows; so_cols : sp_cols s = cols; so_enc : sp_enc s = enc;
      so_stride : sp_stride s = strd h }.

  (** [node h st off n e m]: [m] is a tree of height [h] with [n] instants, the first of
      which is instant [off], and its last span of chunks holds [e] instants. *)
  Fixpoint node (h : nat) (st : store) (off n e : nat) (m : mmstruct) : Prop :=
    exists s, m = MSpan s /\ span_of h s /\ sp_instants s = n /\
    match h with
    | 0 => e = n /\ length (sp_spans s) <= ss /\ n <= length (sp_spans s) * cs /\ length (sp_spans s) * cs < n + cs /\
        forall i, i < length (sp_spans s) -> child st s i (leaf st (off + i * cs) (sub_instants n cs i))
    | S h' => exists k, k < ss /\ length (sp_spans s) = S k /\ k * strd h <= n <= S k * strd h /\
        (forall i, i < k -> child st s i (fun m' => exists e', node h' st (off + i * strd h) (strd h) e' m')) /\
        child st s k (node h' st (off + k * strd h) (n - k * strd h) e)
    end.

  Lemma child_impl st st' s i (Q Q' : mmstruct -> Prop) : incl st st' -> functional st' -> (forall m, Q m -> Q' m) ->
    child st s i Q -> child st' s i Q'.
  Proof. intros HI HF H (c & m & E1 & E2 & E3). exists c, m. split; [exact E1|]. split; [eapply get_mm_incl; eassumption|auto]. Qed.

  Lemma leaf_incl st st' off n m : incl st st' -> leaf st off n m -> leaf st' off n m.
  Proof.
    intros HI (W & S & HV). split; [eapply anchored_incl; eassumption|]. split; [exact S|].
    intros st'' HI' HF. apply HV; [eapply incl_tran; eassumption|exact HF].
  Qed.
  Lemma node_incl st st' : incl st st' -> functional st' -> forall h off n e m, node h st off n e m -> node h st' off n e m.
  Proof.
    intros HI HF. induction h as [|h IH]; intros off n e m (s & E & HS & Hn & H); exists s; (split; [exact E|]); (split; [exact HS|]); (split; [exact Hn|]).
    - destruct H as (He & H1 & H2 & H3 & H4). repeat (split; [assumption|]). intros i Hi.
      eapply child_impl; [exact HI|exact HF| |apply H4; exact Hi]. intros m' Hm. eapply leaf_incl; eassumption.
    - destruct H as (k & H1 & H2 & H3 & H4 & H5). exists k. repeat (split; [assumption|]). split.
      + intros i Hi. eapply child_impl; [exact HI|exact HF| |apply H4; exact Hi]. intros m' (e' & Hm). exists e'. apply IH. exact Hm.
      + eapply child_impl; [exact HI|exact HF| |exact H5]. intros m' Hm. apply IH. exact Hm.
  Qed.

  Lemma node_span h st off n e m : node h st off n e m -> exists s, m = MSpan s /\ span_of h s /\ sp_instants s = n.
  Proof. destruct h; intros (s & E & HS & Hn & _); exists s; auto. Qed.
  Lemma node_shape h st off n e m : node h st off n e m -> mm_shape m = Ok (n, rows, cols).
  Proof. intros H. apply node_span in H. destruct H as (s & -> & [W R C X Y] & <-). cbn [mm_shape]. rewrite R, C. reflexivity. Qed.
  Lemma node_wf h st off n e m : node h st off n e m -> anchored st (NMM m).
  Proof.
    destruct h; intros (s & -> & [W _ _ _ _] & _ & H); (split; [exact (conj W I)|]); cbn [refs mm_refs]; intros x Hx;
      apply In_nth_error in Hx; destruct Hx as (i & Hi); assert (Li : i < length (sp_spans s)) by (apply nth_error_Some; congruence).
    - destruct H as (_ & _ & _ & _ & H). destruct (H i Li) as (c & m & E & G & _). rewrite Hi in E. injection E as ->. eapply has_get_mm, G.
    - destruct H as (k & _ & Hl & _ & H & HL). destruct (Nat.eq_dec i k) as [->|D].
      + destruct HL as (c & m & E & G & _). rewrite Hi in E. injection E as ->. eapply has_get_mm, G.
      + destruct (H i) as (c & m & E & G & _); [lia|]. rewrite Hi in E. injection E as ->. eapply has_get_mm, G.
  Qed.
  Lemma node_le h st off n e m : node h st off n e m -> n <= ss * strd h.
  Proof.
    destruct h; intros (s & _ & _ & _ & H).
    - destruct H as (_ & H1 & H2 & _). rewrite strd_0. nia.
    - destruct H as (k & H1 & _ & H2 & _). nia.
  Qed.

  Lemma node_len0 st off n e m s : node 0 st off n e m -> m = MSpan s -> n = 0 <-> length (sp_spans s) = 0.
  Proof. intros (s' & -> & _ & _ & He & H1 & H2 & H3 & _) E. injection E as ->. nia. Qed.

  (** ** Adding a child to a span *)
  Lemma ok_append h s m n st (post : span -> store -> Prop) : span_of h s ->
    (0 < length (sp_spans s) -> exists c m', nth_error (sp_spans s) (length (sp_spans s) - 1) = Some c /\
       get_mm st c = Ok m' /\ mm_shape m' = Ok (strd h, rows, cols)) ->
    anchored st (NMM m) -> mm_shape m = Ok (n, rows, cols) -> n <= strd h ->
    fits32 (sp_instants s + n) -> fits32 (S (length (sp_spans s))) ->
    (forall c st', incl st st' -> functional st' -> get_mm st' c = Ok m ->
       span_of h (mkSpan (sp_instants s + n) rows cols (strd h) (sp_spans s ++ [c]) enc) ->
       post (mkSpan (sp_instants s + n) rows cols (strd h) (sp_spans s ++ [c]) enc) st') ->
    ok_in (span_append hash s m) st post.
  Proof.
    intros [W R C X Y] HL Wm Sm Hn F1 F2 HP. unfold span_append.
    assert (E : ok_in ((if 0 <? length (sp_spans s)
      then obind (olift (span_last s)) (fun c => obind (oload c) (fun last => obind (olift (instants_of last))
              (fun n0 => if n0 =? sp_stride s then oret tt else olift Panic)))
      else oret tt)) st (fun _ st' => st' = st)).
    { destruct (Nat.ltb_spec 0 (length (sp_spans s))) as [L|L]; [|apply ok_ret; reflexivity].
      destruct (HL L) as (c & m' & E1 & E2 & E3).
      apply (ok_lift_bind _ _ c). { unfold span_last. rewrite usub_ok by lia. cbn [bind]. unfold nth_res. rewrite E1. reflexivity. }
      apply (ok_load_bind _ _ m'); [exact E2|].
      apply (ok_lift_bind _ _ (strd h)). { unfold instants_of. rewrite E3. reflexivity. }
      rewrite Y, Nat.eqb_refl. apply ok_ret. reflexivity. }
    eapply ok_bind; [| |exact E|].
    { mono_auto. }
    { intros _. mono_auto. }
    intros _ st1 HI HF ->. apply (ok_lift_bind _ _ (n, rows, cols)); [exact Sm|].
    rewrite R, C, !Nat.eqb_refl. cbn [negb orb]. rewrite Y. destruct (Nat.ltb_spec (strd h) n) as [L|L]; [lia|].
    eapply ok_bind; [apply mono_save|intros; apply mono_ret| |].
    - apply (ok_save _ _ _ (fun c st' => incl st st' /\ functional st' /\ wf_cid c /\ get_mm st' c = Ok m)); [exact Wm|exact Hhash|].
      intros c st' HI' HF' Wc G. auto.
    - intros c st' _ _ (HI' & HF' & Wc & G). apply ok_ret. rewrite X. apply HP; auto.
      destruct W as [W1 W2 W3 W4 W5 W6]. constructor; cbn [sp_rows sp_cols sp_enc sp_stride]; auto. constructor; cbn [sp_instants sp_rows sp_cols sp_stride sp_spans]; auto.
      + rewrite <- Y. exact W4.
      + rewrite app_length, Nat.add_1_r. exact F2.
      + apply Forall_app. split; [exact W6|]. constructor; [exact Wc|constructor].
  Qed.

  (** A child that was there is still there. *)
  Lemma child_app st s s' c i Q : sp_spans s' = sp_spans s ++ [c] -> child st s i Q -> child st s' i Q.
  Proof. intros E (c0 & m & E1 & E2 & E3). exists c0, m. split; [|auto]. rewrite E, nth_error_app1; [exact E1|]. apply nth_error_Some. congruence. Qed.
  Lemma child_last st s' l c m (Q : mmstruct -> Prop) : sp_spans s' = l ++ [c] -> get_mm st c = Ok m -> Q m -> child st s' (length l) Q.
  Proof. intros E G HQ. exists c, m. split; [|auto]. rewrite E, nth_error_app2, Nat.sub_diag by lia. reflexivity. Qed.

  Lemma nth_removelast {X} (l : list X) i : i < length l - 1 -> nth_error (removelast l) i = nth_error l i.
  Proof.
    intros H. destruct l as [|x l] using rev_ind; [cbn in H; lia|]. rewrite removelast_last. rewrite app_length in H. cbn in H.
    rewrite nth_error_app1 by lia. reflexivity.
  Qed.
  Lemma length_removelast {X} (l : list X) : length (removelast l) = length l - 1.
  Proof. destruct l as [|x l] using rev_ind; [reflexivity|]. rewrite removelast_last, app_length. cbn. lia. Qed.
  Lemma Forall_removelast {X} (Q : X -> Prop) l : Forall Q l -> Forall Q (removelast l).
  Proof. destruct l as [|x l] using rev_ind; [auto|]. rewrite removelast_last. intros H. apply Forall_app in H. apply H. Qed.

  (** The same for an update of the last child. *)
  Lemma ok_update h s m n k st (post : span -> store -> Prop) : span_of h s ->
    length (sp_spans s) = S k ->
    (0 < k -> child st s (k - 1) (fun m' => mm_shape m' = Ok (strd h, rows, cols))) ->
    anchored st (NMM m) -> mm_shape m = Ok (n, rows, cols) -> n <= strd h ->
    fits32 (k * strd h + n) ->
    (forall c st', incl st st' -> functional st' -> get_mm st' c = Ok m ->
       span_of h (mkSpan (k * strd h + n) rows cols (strd h) (removelast (sp_spans s) ++ [c]) enc) ->
       post (mkSpan (k * strd h + n) rows cols (strd h) (removelast (sp_spans s) ++ [c]) enc) st') ->
    ok_in (span_update hash s m) st post.
  Proof.
    intros [W R C X Y] Hk HL Wm Sm Hn F1 HP. unfold span_update.
    assert (Hlen : length (removelast (sp_spans s)) = k) by (rewrite length_removelast; lia).
    rewrite Hlen, Y, R, C, X.
    apply (ok_append h _ m n); cbn [sp_spans sp_instants]; auto.
    - destruct W as [W1 W2 W3 W4 W5 W6]. constructor; cbn [sp_rows sp_cols sp_enc sp_stride]; auto.
      constructor; cbn [sp_instants sp_rows sp_cols sp_stride sp_spans]; auto.
      + eapply fits32_le; [|exact F1]. lia.
      + rewrite <- Y. exact W4.
      + eapply fits32_le; [|exact W5]. lia.
      + apply Forall_removelast. exact W6.
    - rewrite Hlen. intros L. destruct (HL L) as (c & m' & E1 & E2 & E3). exists c, m'. split; [|auto].
      rewrite nth_removelast by lia. exact E1.
    - rewrite Hlen, <- Hk. apply wsp_count. exact W.
  Qed.
  Lemma child_removelast st s s' c i Q : sp_spans s' = removelast (sp_spans s) ++ [c] -> i < length (sp_spans s) - 1 ->
    child st s i Q -> child st s' i Q.
  Proof.
    intros E Hi (c0 & m & E1 & E2 & E3). exists c0, m. split; [|auto]. rewrite E, nth_error_app1 by (rewrite length_removelast; lia).
    rewrite nth_removelast by lia. exact E1.
  Qed.

  (** ** The ancestors of a span *)

  (** [rest_ok ex st h lo rest]: [rest] are the ancestors, nearest first, of a tree of
      height [h] whose first instant is instant [lo]. What comes before that tree in each
      of them is complete, and the topmost has more than one part. If [ex] is [Some (n, e)], they are the ancestors of the stored
      tree with [n] instants, [e] of them in its last span of chunks. *)
  Fixpoint rest_ok (ex : option (nat * nat)) (st : store) (h lo : nat) (rest : list mmstruct) : Prop :=
    match rest with
    | [] => lo = 0
    | p :: rest' => exists s k lo', p = MSpan s /\ span_of (S h) s /\ k < ss /\ length (sp_spans s) = S k /\
        lo = lo' + k * strd (S h) /\
        (forall i, i < k -> child st s i (fun m => exists e', node h st (lo' + i * strd (S h)) (strd (S h)) e' m)) /\
        match ex with Some (n, e) => node (S h) st lo' (k * strd (S h) + n) e p | None => True end /\
        (rest' = [] -> 1 <= k) /\
        rest_ok (match ex with Some (n, e) => Some (k * strd (S h) + n, e) | None => None end) st (S h) lo' rest'
    end.
  Lemma rest_none ex st : forall rest h lo, rest_ok ex st h lo rest -> rest_ok None st h lo rest.
  Proof.
    revert ex. intros ex rest. revert ex. induction rest as [|p rest IH]; intros ex h lo; cbn [rest_ok]; [trivial|].
    intros (s & k & lo' & H1 & H2 & H3 & H4 & H5 & H6 & _ & H7 & H8). exists s, k, lo'. do 6 (split; [assumption|]). split; [exact I|]. split; [exact H7|].
    eapply IH. exact H8.
  Qed.
  Lemma rest_incl st st' : incl st st' -> functional st' -> forall rest ex h lo, rest_ok ex st h lo rest -> rest_ok ex st' h lo rest.
  Proof.
    intros HI HF. induction rest as [|p rest IH]; intros ex h lo; cbn [rest_ok]; [trivial|].
    intros (s & k & lo' & H1 & H2 & H3 & H4 & H5 & H6 & H7 & HQ & H8). exists s, k, lo'. do 5 (split; [assumption|]). split; [|split; [|split; [exact HQ|]]].
    - intros i Hi. eapply child_impl; [exact HI|exact HF| |apply H6; exact Hi]. intros m (e' & Hm). exists e'. eapply node_incl; eassumption.
    - destruct ex as [[n e]|]; [|exact I]. eapply node_incl; eassumption.
    - apply IH. exact H8.
  Qed.
  (** The first instant of the tree is one of the [N]. *)

  (** Trees are not higher than they must be: a root of spans has more than one part. *)
  Definition fine (h : nat) (m : mmstruct) : Prop := h = 0 \/ exists s, m = MSpan s /\ 2 <= length (sp_spans s).

  Lemma ok_update_up : forall rest h lo n e m st, node h st lo n e m -> rest_ok None st h lo rest -> lo + n <= N -> functional st ->
    (rest = [] -> fine h m) ->
    ok_in (update_up hash m rest) st (fun m' st' => exists H, node H st' 0 (lo + n) e m' /\ fine H m').
  Proof.
    induction rest as [|p rest IH]; intros h lo n e m st HN HR HL HF Hfine; cbn [update_up].
    - cbn [rest_ok] in HR. subst lo. apply ok_ret. exists h. split; [exact HN|]. apply Hfine. reflexivity.
    - cbn [rest_ok] in HR. destruct HR as (s & k & lo' & -> & HS & Hk & Hlen & Hlo & Hfull & _ & Htop & HR).
      apply (ok_lift_bind _ _ s); [reflexivity|].
      pose proof (node_le _ _ _ _ _ _ HN) as Hle. rewrite <- strd_S in Hle.
      eapply ok_bind; [apply mono_span_update|intros; apply mono_update_up| |].
      + eapply (ok_update (S h) s m n k st (fun s' st' => functional st' /\ length (sp_spans s') = S k /\ node (S h) st' lo' (k * strd (S h) + n) e (MSpan s'))); auto.
        * intros Hk0. eapply child_impl; [apply incl_refl|exact HF| |apply (Hfull (k - 1)); lia]. intros m' (e' & Hm). eapply node_shape. exact Hm.
        * eapply node_wf. exact HN.
        * eapply node_shape. exact HN.
        * eapply fits32_le; [|exact FN]. lia.
        * intros c st' HI HF' G HS'. split; [exact HF'|]. set (s' := mkSpan _ _ _ _ _ _) in *.
          assert (El : length (removelast (sp_spans s)) = k) by (rewrite length_removelast; lia).
          split; [cbn [s' sp_spans]; rewrite app_length, El; cbn; lia|].
          exists s'. split; [reflexivity|]. split; [exact HS'|]. split; [reflexivity|]. exists k.
          split; [exact Hk|]. split; [cbn [s' sp_spans]; rewrite app_length, El; cbn; lia|]. split; [lia|]. split.
          -- intros i Hi. apply (child_removelast st' s s' c); [reflexivity|lia|].
             eapply child_impl; [exact HI|exact HF'| |apply Hfull; exact Hi]. intros m' (e' & Hm). exists e'. eapply node_incl; eassumption.
          -- rewrite <- El at 1. apply (child_last st' s' (removelast (sp_spans s)) c m); [reflexivity|exact G|].
             rewrite <- Hlo. replace (k * strd (S h) + n - k * strd (S h)) with n by lia. eapply node_incl; eassumption.
      + intros s' st1 HI _ (HF1 & Hl' & HN'). eapply ok_post; [apply mono_update_up| |].
        * apply (IH (S h) lo' (k * strd (S h) + n) e (MSpan s') st1); auto; [|lia|].
          -- eapply rest_incl; [exact HI|exact HF1|]. exact HR.
          -- intros Er. right. exists s'. split; [reflexivity|]. rewrite Hl'. specialize (Htop Er). lia.
        * intros m' st' _ _ (H & Hm & Hf). exists H. split; [|exact Hf]. replace (lo + n) with (lo' + (k * strd (S h) + n)) by lia. exact Hm.
  Qed.

  (** The tree that a variable points to: [T] instants, [e] of them in the last span of chunks. *)
  Definition tree (st : store) (root : cid) (T e : nat) : Prop :=
    wf_cid root /\ exists m h, get_mm st root = Ok m /\ node h st 0 T e m /\ fine h m.
  Lemma tree_incl st st' root T e : incl st st' -> functional st' -> tree st root T e -> tree st' root T e.
  Proof. intros HI HF (W & m & h & G & HN & Hf). split; [exact W|]. exists m, h. split; [eapply get_mm_incl; eassumption|]. split; [eapply node_incl; eassumption|exact Hf]. Qed.

  Lemma ok_save_spans m rest lo n st : node 0 st lo n n m -> rest_ok None st 0 lo rest -> lo + n <= N -> functional st ->
    ok_in (save_spans hash (m :: rest)) st (fun c st' => tree st' c (lo + n) n).
  Proof.
    intros HN HR HL HF. unfold save_spans. eapply ok_bind; [apply mono_update_up|intros; apply mono_save|eapply ok_update_up; try eassumption; intros _; left; reflexivity|].
    intros m' st1 HI HF1 (H & Hm & Hf). apply ok_save; [eapply node_wf; exact Hm|exact Hhash|].
    intros c st' HI' HF' Wc G. split; [exact Wc|]. exists m', H. split; [exact G|]. split; [eapply node_incl; eassumption|exact Hf].
  Qed.

  (** ** Walking to the last span of chunks *)
  Lemma tail_loop_ok st (HF : functional st) : forall h off n e m anc fuel, node h st off n e m -> rest_ok (Some (n, e)) st h off anc -> strd h < fuel ->
    (anc = [] -> fine h m) ->
    exists m0 rest lo, tail_loop fuel cs m anc st = (st, Ok (m0 :: rest)) /\ node 0 st lo e e m0 /\
      rest_ok (Some (e, e)) st 0 lo rest /\ lo + e = off + n.
  Proof.
    induction h as [|h IH]; intros off n e m anc fuel HN HR Hf Hfine; (destruct fuel as [|fuel]; [lia|]); cbn [tail_loop].
    - pose proof HN as HN0. destruct HN as (s & -> & [W R C X Y] & Hn & -> & _). unfold obind, olift. cbn [as_span].
      rewrite Y, strd_0, Nat.ltb_irrefl. exists (MSpan s), anc, off. split; [reflexivity|]. split; [exact HN0|]. split; [exact HR|reflexivity].
    - pose proof HN as HN0. destruct HN as (s & -> & HS & Hn & k & Hk & Hlen & Hnk & Hfull & c & m' & E1 & E2 & HN').
      pose proof HS as [W R C X Y]. unfold obind at 1, olift at 1. cbn [as_span]. rewrite Y. pose proof (strd_gt h) as Hgt.
      destruct (Nat.ltb_spec cs (strd (S h))); [|lia].
      unfold obind at 1, olift at 1. unfold span_last. rewrite usub_ok by lia. cbn [bind]. rewrite Hlen. replace (S k - 1) with k by lia.
      unfold nth_res. rewrite E1. unfold obind at 1, oload at 1. rewrite E2.
      destruct (IH _ _ _ _ (MSpan s :: anc) fuel HN') as (m0 & rest & lo & Q1 & Q2 & Q3 & Q4).
      + cbn [rest_ok]. exists s, k, off. repeat (split; [assumption || reflexivity|]).
        replace (k * strd (S h) + (n - k * strd (S h))) with n by lia. split; [exact HN0|]. split; [|exact HR].
        intros Er. destruct (Hfine Er) as [Q|(s' & Q & Q')]; [discriminate Q|]. injection Q as <-. lia.
      + pose proof (strd_S h). pose proof (strd_pos h). nia.
      + discriminate.
      + exists m0, rest, lo. split; [exact Q1|]. split; [exact Q2|]. split; [exact Q3|]. lia.
  Qed.
  Lemma tail_spans_ok st (HF : functional st) root T e : tree st root T e ->
    exists m0 rest lo, tail_spans cs root st = (st, Ok (m0 :: rest)) /\ node 0 st lo e e m0 /\ rest_ok (Some (e, e)) st 0 lo rest /\ lo + e = T.
  Proof.
    intros (_ & m & h & G & HN & Hf). destruct (node_span _ _ _ _ _ _ HN) as (s & E & [W R C X Y] & _).
    unfold tail_spans, obind, oload, olift. rewrite G, E. cbn [as_span]. rewrite <- E.
    destruct (tail_loop_ok st HF h 0 T e m [] (S (sp_stride s)) HN) as (m0 & rest & lo & Q); [reflexivity|rewrite Y; lia|intros _; exact Hf|].
    exists m0, rest, lo. exact Q.
  Qed.
  Lemma ok_tail_spans st (HF : functional st) root T e : tree st root T e ->
    ok_in (tail_spans cs root) st (fun l st' => st' = st /\ exists m0 rest lo, l = m0 :: rest /\ node 0 st lo e e m0 /\ rest_ok (Some (e, e)) st 0 lo rest /\ lo + e = T).
  Proof.
    intros HT. destruct (tail_spans_ok st HF root T e HT) as (m0 & rest & lo & Q & Q').
    intros _. rewrite Q. exists (m0 :: rest). split; [reflexivity|]. split; [|apply grown_refl]. split; [reflexivity|]. exists m0, rest, lo. split; [reflexivity|exact Q'].
  Qed.

  (** ** Opening a new span *)

  Lemma span_new_of h : fits32 (strd h) -> span_of h (span_new rows cols (strd h) enc).
  Proof using Fr Fc.
    intros F. constructor; try reflexivity. constructor; cbn; auto; (eapply fits32_le; [|exact F]; apply Nat.le_0_l).
  Qed.

  (** Appending a tree of height [h] to a span of height [S h]. *)
  Lemma ok_append_node h s m n e st (post : span -> store -> Prop) : functional st ->
    span_of (S h) s -> forall lo k, length (sp_spans s) = k -> sp_instants s = k * strd (S h) -> k < ss ->
    (forall i, i < k -> child st s i (fun m' => exists e', node h st (lo + i * strd (S h)) (strd (S h)) e' m')) ->
    node h st (lo + k * strd (S h)) n e m -> lo + k * strd (S h) + n <= N ->
    (forall s' st', incl st st' -> functional st' -> node (S h) st' lo (k * strd (S h) + n) e (MSpan s') ->
       length (sp_spans s') = S k -> post s' st') ->
    ok_in (span_append hash s m) st post.
  Proof.
    intros HF HS lo k Hlen Hins Hk Hfull HN HL HP.
    pose proof (node_le _ _ _ _ _ _ HN) as Hle. rewrite <- strd_S in Hle.
    apply (ok_append (S h) s m n); auto.
    - intros Hk0. destruct (Hfull (k - 1)) as (c & m' & E1 & E2 & e' & E3); [lia|]. exists c, m'. rewrite Hlen. split; [exact E1|].
      split; [exact E2|]. eapply node_shape. exact E3.
    - eapply node_wf. exact HN.
    - eapply node_shape. exact HN.
    - rewrite Hins. eapply fits32_le; [|exact FN]. lia.
    - eapply fits32_le; [|exact Fss]. lia.
    - intros c st' HI HF' G HS'. apply HP; auto.
      2:{ cbn [sp_spans]. rewrite app_length, Hlen. cbn. lia. }
      set (s' := mkSpan _ _ _ _ _ _) in *.
      exists s'. split; [reflexivity|]. split; [exact HS'|]. split; [cbn [s' sp_instants]; lia|]. exists k. split; [exact Hk|].
      split; [cbn [s' sp_spans]; rewrite app_length, Hlen; cbn; lia|]. split; [lia|]. split.
      + intros i Hi. apply (child_app st' s s' c); [reflexivity|]. eapply child_impl; [exact HI|exact HF'| |apply Hfull; exact Hi].
        intros m' (e' & Hm). exists e'. eapply node_incl; eassumption.
      + rewrite <- Hlen at 1. apply (child_last st' s' (sp_spans s) c m); [reflexivity|exact G|].
        replace (k * strd (S h) + n - k * strd (S h)) with n by lia. eapply node_incl; eassumption.
  Qed.

  Lemma strd_double h : strd h + strd h <= strd (S h).
  Proof. rewrite strd_S. nia. Qed.

  Lemma ok_open_loop : forall rest h lo0 lo1 e s lh st, functional st ->
    node h st lo1 0 0 (MSpan s) -> node h st lo0 (strd (S h)) e lh -> lo1 = lo0 + strd (S h) -> lo1 <= N ->
    rest_ok (Some (strd (S h), e)) st h lo0 rest ->
    ok_in (open_loop hash ss rows cols enc s lh rest) st (fun x st' => exists H lo n,
      node H st' lo n 0 (MSpan (fst x)) /\ rest_ok None st' H lo (snd x) /\ lo + n = lo1 /\ 2 <= length (sp_spans (fst x))).
  Proof.
    induction rest as [|p rest IH]; intros h lo0 lo1 e s lh st HF HNs HNl Hlo HL HR; cbn [open_loop].
    all: assert (Ys : ss * sp_stride s = strd (S h)) by (destruct (node_span _ _ _ _ _ _ HNs) as (s0 & E & [W R C X Y] & _); injection E as <-; rewrite Y, strd_S; reflexivity).
    all: assert (Fst : fits32 (strd (S h))) by (eapply fits32_le; [|exact FN]; lia).
    all: rewrite ?Ys.
    - cbn [rest_ok] in HR. subst lo0. cbn [Nat.add] in Hlo.
      eapply ok_bind; [apply mono_span_append|intros; mono_auto| |].
      + apply (ok_append_node h (span_new rows cols (strd (S h)) enc) lh (strd (S h)) e st
          (fun r st' => functional st' /\ node (S h) st' 0 (strd (S h)) e (MSpan r) /\ length (sp_spans r) = 1) HF (span_new_of (S h) Fst) 0 0);
          cbn [span_new sp_spans sp_instants length]; auto; try lia.
      + intros r st1 HI _ (HF1 & (s1 & E1 & HS1 & Hn1 & k & Hk & Hlen & Hnk & Hfull & Hlast) & Hlen1). injection E1 as <-.
        assert (k = 0) as -> by lia.
        eapply ok_bind; [apply mono_span_append|intros; mono_auto| |].
        * apply (ok_append_node h r (MSpan s) 0 0 st1
            (fun r' st' => functional st' /\ node (S h) st' 0 (strd (S h)) 0 (MSpan r') /\ length (sp_spans r') = 2) HF1 HS1 0 1); auto; try lia.
          -- intros i Hi. assert (i = 0) as -> by lia. destruct Hlast as (c & m & A1 & A2 & A3). exists c, m. split; [exact A1|]. split; [exact A2|].
             exists e. cbn [Nat.mul Nat.add] in *. rewrite Nat.sub_0_r in A3. exact A3.
          -- rewrite Nat.mul_1_l. cbn [Nat.add]. rewrite <- Hlo. eapply node_incl; eassumption.
          -- intros r' st' HI' HF' HN Hl'. split; [exact HF'|]. rewrite Nat.mul_1_l, Nat.add_0_r in HN. split; [exact HN|exact Hl'].
        * intros r' st2 HI' _ (HF2 & HN & Hl'). apply ok_ret. exists (S h), 0, (strd (S h)). cbn [fst snd rest_ok]. rewrite Hl'. auto.
    - cbn [rest_ok] in HR. destruct HR as (sp & k & lo' & -> & HS & Hk & Hlen & Hl0 & Hfull & HNp & Htop & HR).
      apply (ok_lift_bind _ _ sp); [reflexivity|]. rewrite Hlen.
      destruct (Nat.eqb_spec (S k) ss) as [Ek|Nk].
      + eapply ok_bind; [apply mono_span_append|intros; apply mono_open_loop| |].
        * apply (ok_append_node h (span_new rows cols (strd (S h)) enc) (MSpan s) 0 0 st
          (fun r st' => functional st' /\ node (S h) st' lo1 0 0 (MSpan r)) HF (span_new_of (S h) Fst) lo1 0);
          cbn [span_new sp_spans sp_instants length]; auto; try lia.
          rewrite Nat.mul_0_l, Nat.add_0_r. exact HNs.
        * intros r st1 HI _ (HF1 & HN). 
          replace (k * strd (S h) + strd (S h)) with (strd (S (S h))) in HNp, HR by (rewrite (strd_S (S h)), <- Ek; lia).
          apply (IH (S h) lo' lo1 e r (MSpan sp) st1); auto.
          -- eapply node_incl; eassumption.
          -- rewrite (strd_S (S h)), <- Ek. lia.
          -- eapply rest_incl; eassumption.
      + eapply ok_bind; [apply mono_span_append|intros; mono_auto| |].
        * destruct HNp as (s1 & E1 & HS1 & Hn1 & k' & Hk' & Hlen' & Hnk & Hfull' & Hlast). injection E1 as <-.
          assert (k' = k) as -> by lia.
          apply (ok_append_node h sp (MSpan s) 0 0 st
            (fun r' st' => functional st' /\ node (S h) st' lo' (S k * strd (S h)) 0 (MSpan r') /\ length (sp_spans r') = S (S k)) HF HS lo' (S k)); auto; try lia.
          -- intros i Hi. destruct (Nat.eq_dec i k) as [->|Nik]; [|apply Hfull; lia].
             destruct Hlast as (c & m & A1 & A2 & A3). exists c, m. split; [exact A1|]. split; [exact A2|].
             exists e. replace (k * strd (S h) + strd (S h) - k * strd (S h)) with (strd (S h)) in A3 by lia. exact A3.
          -- replace (lo' + S k * strd (S h)) with lo1 by lia. exact HNs.
          -- intros r' st' HI' HF' HN Hl'. split; [exact HF'|]. rewrite Nat.add_0_r in HN. split; [exact HN|exact Hl'].
        * intros r st1 HI _ (HF1 & HN & Hl'). apply ok_ret. exists (S h), lo', (S k * strd (S h)). cbn [fst snd]. split; [exact HN|].
          split; [|rewrite Hl'; lia]. eapply rest_incl; [exact HI|exact HF1|]. eapply rest_none. exact HR.
  Qed.

  Lemma ok_create_open_span st root T : functional st -> tree st root T (strd 1) -> T <= N ->
    ok_in (create_open_span hash ss cs rows cols enc root) st (fun c st' => tree st' c T 0).
  Proof.
    intros HF HT HL. unfold create_open_span.
    eapply ok_bind; [apply mono_tail_spans| |eapply (ok_tail_spans st HF root T _ HT)|].
    { intros [|lh rest]; [apply mono_lift|]. apply mono_bind; [apply mono_open_loop|]. intros [s' anc].
      apply mono_bind; [apply mono_update_up|intros; apply mono_save]. }
    intros l st1 _ _ (-> & lh & rest & lo & -> & HN & HR & HT').
    eapply ok_bind; [apply mono_open_loop| | |].
    { intros [s' anc]. apply mono_bind; [apply mono_update_up|intros; apply mono_save]. }
    - apply (ok_open_loop rest 0 lo (lo + strd 1) (strd 1) (span_new rows cols cs enc) lh st); auto; [|lia].
      exists (span_new rows cols cs enc). split; [reflexivity|]. split.
      { rewrite <- strd_0 at 1. apply span_new_of. rewrite strd_0. exact Fcs. }
      cbn [span_new sp_instants sp_spans length]. repeat (split; [lia|]). intros i Hi. lia.
    - intros [s' anc] st2 HI HF2 (H & lo' & n & HN' & HR' & E & Hl'). cbn [fst snd] in HN', HR', Hl'.
      eapply ok_bind; [apply mono_update_up|intros; apply mono_save|eapply ok_update_up; try eassumption; [lia|]|].
      { intros _. right. exists s'. split; [reflexivity|exact Hl']. }
      intros m st3 HI3 HF3 (H' & Hm & Hf). apply ok_save; [eapply node_wf; exact Hm|exact Hhash|].
      intros c st' HI' HF' Wc G. split; [exact Wc|]. exists m, H'. split; [exact G|]. split; [|exact Hf]. replace T with (lo' + n) by lia. eapply node_incl; eassumption.
  Qed.

  (** ** Adding chunks *)

  (** A span of chunks whose chunks are all complete. *)
  Lemma node0_full st lo k s : node 0 st lo (k * cs) (k * cs) (MSpan s) ->
    length (sp_spans s) = k /\ sp_instants s = k * cs /\ k <= ss /\ forall i, i < k -> child st s i (leaf st (lo + i * cs) cs).
  Proof.
    intros (s' & E & HS & Hn & _ & H1 & H2 & H3 & H4). injection E as <-.
    assert (El : length (sp_spans s) = k) by nia. split; [exact El|]. split; [exact Hn|]. split; [lia|].
    intros i Hi. specialize (H4 i ltac:(lia)). replace (sub_instants (k * cs) cs i) with cs in H4; [exact H4|].
    unfold sub_instants. nia.
  Qed.
  (** Putting one together. *)
  Lemma node0_make st lo k len s l c m : span_of 0 s -> sp_spans s = l ++ [c] -> length l = k -> sp_instants s = k * cs + len ->
    k < ss -> 1 <= len <= cs -> (forall i, i < k -> child st s i (leaf st (lo + i * cs) cs)) -> get_mm st c = Ok m ->
    leaf st (lo + k * cs) len m -> node 0 st lo (k * cs + len) (k * cs + len) (MSpan s).
  Proof.
    intros HS El Hl Hi Hk Hlen Hfull G HL. exists s. split; [reflexivity|]. split; [exact HS|]. split; [exact Hi|].
    assert (E : length (sp_spans s) = S k) by (rewrite El, app_length; cbn; lia).
    split; [reflexivity|]. rewrite E. split; [lia|]. split; [nia|]. split; [nia|]. intros i Hik.
    destruct (Nat.eq_dec i k) as [->|Nik].
    - replace (sub_instants (k * cs + len) cs k) with len by (unfold sub_instants; lia). rewrite <- Hl at 1.
      apply (child_last st s l c m); assumption.
    - replace (sub_instants (k * cs + len) cs i) with cs by (unfold sub_instants; nia). apply Hfull. lia.
  Qed.

  (** [ready upd st pos x]: the spans [x] are ready for the chunk at instant [pos], which
      replaces the last chunk if [upd]. *)
  Definition ready (upd : bool) (st : store) (pos : nat) (x : list mmstruct) : Prop :=
    exists s rest lo k, x = MSpan s :: rest /\ rest_ok None st 0 lo rest /\ pos = lo + k * cs /\
    if upd then span_of 0 s /\ k < ss /\ length (sp_spans s) = S k /\ sp_instants s < ss * cs /\
           (forall i, i < k -> child st s i (leaf st (lo + i * cs) cs))
    else node 0 st lo (k * cs) (k * cs) (MSpan s).
  (** What the spans hold after [T] instants. *)
  Definition filled (st : store) (T : nat) (x : list mmstruct) : Prop :=
    exists m rest lo n, x = m :: rest /\ rest_ok None st 0 lo rest /\ node 0 st lo n n m /\ lo + n = T.
  (** The same, when the last of them was added. *)
  Definition added (st : store) (T : nat) (x : list mmstruct) : Prop :=
    exists m rest lo n, x = m :: rest /\ rest_ok None st 0 lo rest /\ node 0 st lo n n m /\ lo + n = T /\ 1 <= n.
  Lemma added_filled st T x : added st T x -> filled st T x.
  Proof. intros (m & rest & lo & n & H1 & H2 & H3 & H4 & _). exists m, rest, lo, n. auto. Qed.

  Lemma ready_incl upd st st' pos x : incl st st' -> functional st' -> ready upd st pos x -> ready upd st' pos x.
  Proof.
    intros HI HF (s & rest & lo & k & E & HR & Hp & H). exists s, rest, lo, k. split; [exact E|]. split; [eapply rest_incl; eassumption|].
    split; [exact Hp|]. destruct upd.
    - destruct H as (H1 & H2 & H3 & H4 & H5). repeat (split; [assumption|]). intros i Hi.
      eapply child_impl; [exact HI|exact HF| |apply H5; exact Hi]. intros m. apply leaf_incl. exact HI.
    - eapply node_incl; eassumption.
  Qed.

  Section Steps.
    Variables (v : variable) (build : nat -> nat -> op mmstruct) (base instants : nat).
    Hypothesis Hvc : va_chunk_size v = cs.
    Hypothesis Hvs : va_span_size v = ss.
    Hypothesis Hve : va_enc v = enc.
    Hypothesis Hbm : forall a b, mono (build a b).
    Hypothesis HN : base + instants <= N.

    Lemma ok_step st root spans upd start : functional st -> start < instants -> ready upd st (base + start) spans ->
      (forall len, len = Nat.min cs (instants - start) -> ok_in (build start len) st (fun m st' => leaf st' (base + start) len m)) ->
      ok_in (append_step hash build v instants rows cols (root, spans, upd) start) st
        (fun x st' => exists r sp, x = (r, sp, false) /\
           added st' (base + Nat.min (start + cs) instants) sp /\
           (start + cs <= instants -> ready false st' (base + (start + cs)) sp)).
    Proof.
      intros HF Hst HR Hbuild. unfold append_step. rewrite Hvc, Hvs, Hve.
      set (len := Nat.min (start + cs) instants - start). assert (Hlen : 1 <= len <= cs) by lia.
      eapply ok_bind; [apply Hbm| |apply (Hbuild len); unfold len; lia|].
      { intros chunk. destruct spans as [|m rest]; [apply mono_lift|]. apply mono_bind; [apply mono_lift|]. intros s.
        apply mono_bind.
        - apply mono_if; [|apply mono_ret]. apply mono_bind; [apply mono_save_spans|]. intros r1.
          apply mono_bind; [apply mono_create_open_span|]. intros r2. apply mono_bind; [apply mono_tail_spans|].
          intros [|m' rest']; mono_auto.
        - intros [[r s'] rest']. mono_auto. }
      intros chunk st1 HI HF1 HLf. apply (ready_incl _ _ _ _ _ HI HF1) in HR.
      destruct HR as (s & rest & lo & k & -> & HR & Hpos & H).
      apply (ok_lift_bind _ _ s); [reflexivity|].
      apply (ok_bind _ _ _ (fun y st2 => exists r s2 rest2, y = (r, s2, rest2) /\ ready upd st2 (base + start) (MSpan s2 :: rest2) /\
        (if upd then True else sp_instants s2 < ss * cs))).
      { apply mono_if; [|apply mono_ret]. apply mono_bind; [apply mono_save_spans|]. intros r1.
          apply mono_bind; [apply mono_create_open_span|]. intros r2. apply mono_bind; [apply mono_tail_spans|].
          intros [|m' rest']; mono_auto. }
      { intros [[r s'] rest']. mono_auto. }
      - destruct (Nat.eqb_spec (sp_instants s) (ss * sp_stride s)) as [Ef|Nf].
        + destruct upd.
          { exfalso. destruct H as ([W R C X Y] & H2 & H3 & H4 & H5). rewrite Y, strd_0 in Ef. lia. }
          pose proof (node0_full _ _ _ _ H) as (F1 & F2 & F3 & F4).
          assert (Es : sp_stride s = cs). { destruct (node_span _ _ _ _ _ _ H) as (s0 & E & [W R C X Y] & _). injection E as <-. rewrite Y. apply strd_0. }
          rewrite Es, F2 in Ef.
          eapply ok_bind; [apply mono_save_spans| |apply (ok_save_spans (MSpan s) rest lo (k * cs) st1 H HR); [lia|exact HF1]|].
          { intros r1. apply mono_bind; [apply mono_create_open_span|]. intros r2. apply mono_bind; [apply mono_tail_spans|].
            intros [|m' rest']; mono_auto. }
          intros r1 st2 HI2 HF2 HT. rewrite <- Hpos in HT.
          replace (k * cs) with (strd 1) in HT by (rewrite strd_S, strd_0; lia).
          eapply ok_bind; [apply mono_create_open_span| |apply (ok_create_open_span st2 r1 (base + start) HF2 HT); lia|].
          { intros r2. apply mono_bind; [apply mono_tail_spans|]. intros [|m' rest']; mono_auto. }
          intros r2 st3 HI3 HF3 HT3. 
          eapply ok_bind; [apply mono_tail_spans| |apply (ok_tail_spans st3 HF3 r2 _ _ HT3)|].
          { intros [|m' rest']; mono_auto. }
          intros l st4 _ _ (-> & m0 & rest3 & lo3 & -> & HN3 & HR3 & E3).
          destruct (node_span _ _ _ _ _ _ HN3) as (s3 & -> & HS3 & Hi3).
          apply (ok_lift_bind _ _ s3); [reflexivity|].
          rewrite (proj1 (node_len0 _ _ _ _ _ s3 HN3 eq_refl) eq_refl), Nat.eqb_refl. apply ok_ret.
          exists r2, s3, rest3. split; [reflexivity|]. split; [|rewrite Hi3; nia].
          exists s3, rest3, lo3, 0. split; [reflexivity|]. split; [eapply rest_none; exact HR3|]. split; [lia|]. exact HN3.
        + apply ok_ret. exists root, s, rest. split; [reflexivity|]. split.
          * exists s, rest, lo, k. split; [reflexivity|]. split; [exact HR|]. split; [exact Hpos|exact H].
          * destruct upd; [exact I|]. pose proof (node0_full _ _ _ _ H) as (F1 & F2 & F3 & F4).
            assert (Es : sp_stride s = cs). { destruct (node_span _ _ _ _ _ _ H) as (s0 & E & [W R C X Y] & _). injection E as <-. rewrite Y. apply strd_0. }
            rewrite Es, F2 in *. nia.
      - clear s rest lo k HR Hpos H. intros y st2 HI2 HF2 (r & s & rest & -> & (s2 & rest2 & lo & k & E & HR & Hpos & H) & Hlt).
        injection E as <- <-. apply (leaf_incl _ _ _ _ _ HI2) in HLf.
        assert (Ffin : fits32 (k * cs + len)) by (eapply fits32_le; [|exact FN]; unfold len; lia).
        apply (ok_bind _ _ _ (fun s' st3 => node 0 st3 lo (k * cs + len) (k * cs + len) (MSpan s') /\ rest_ok None st3 0 lo rest)).
        { destruct upd; [apply mono_span_update|apply mono_span_append]. }
        { intros; apply mono_ret. }
        + pose proof HLf as (WL & SL & VL). destruct upd.
          * destruct H as (HS & Hk & Hl & _ & Hfull).
            apply (ok_update 0 s chunk len k); rewrite ?strd_0; auto; try lia.
            -- intros Hk0. eapply child_impl; [apply incl_refl|exact HF2| |apply (Hfull (k - 1)); lia]. intros m' (_ & S' & _). exact S'.
            -- intros c st3 HI3 HF3 G HS3. split; [|eapply rest_incl; eassumption].
               eapply (node0_make st3 lo k len _ (removelast (sp_spans s)) c chunk HS3); try reflexivity; auto.
               ++ rewrite length_removelast. lia.
               ++ intros i Hi. apply (child_removelast st3 s _ c); [reflexivity|lia|].
                  eapply child_impl; [exact HI3|exact HF3| |apply Hfull; exact Hi]. intros m'. apply leaf_incl. exact HI3.
               ++ rewrite <- Hpos. eapply leaf_incl; eassumption.
          * pose proof (node0_full _ _ _ _ H) as (F1 & F2 & F3 & Hfull). rewrite F2 in Hlt.
            destruct (node_span _ _ _ _ _ _ H) as (s0 & E & HS & _). injection E as <-.
            apply (ok_append 0 s chunk len); rewrite ?strd_0; auto; try lia.
            -- intros Hk0. destruct (Hfull (k - 1)) as (c & m' & A1 & A2 & _ & A3 & _); [lia|]. exists c, m'. rewrite F1. auto.
            -- rewrite F2. exact Ffin.
            -- eapply fits32_le; [|exact Fss]. nia.
            -- intros c st3 HI3 HF3 G HS3. split; [|eapply rest_incl; eassumption].
               eapply (node0_make st3 lo k len _ (sp_spans s) c chunk HS3); try reflexivity; auto.
               ++ cbn [sp_instants]. lia.
               ++ nia.
               ++ intros i Hi. apply (child_app st3 s _ c); [reflexivity|].
                  eapply child_impl; [exact HI3|exact HF3| |apply Hfull; exact Hi]. intros m'. apply leaf_incl. exact HI3.
               ++ rewrite <- Hpos. eapply leaf_incl; eassumption.
        + intros s' st3 HI3 HF3 (HN3 & HR3). apply ok_ret. exists r, (MSpan s' :: rest). split; [reflexivity|]. split.
          * exists (MSpan s'), rest, lo, (k * cs + len). split; [reflexivity|]. split; [exact HR3|]. split; [exact HN3|]. unfold len. split; lia.
          * intros Hfit. exists s', rest, lo, (S k). split; [reflexivity|]. split; [exact HR3|]. split; [lia|].
            replace (S k * cs) with (k * cs + len) by (unfold len; lia). exact HN3.
    Qed.

    Hypothesis Hbuild : forall st start len, functional st -> (exists i, start = i * cs) -> start < instants ->
      len = Nat.min cs (instants - start) ->
      ok_in (build start len) st (fun m st' => leaf st' (base + start) len m).

    Lemma ok_steps : forall n i st root spans upd, functional st -> i + n = (instants + cs - 1) / cs ->
      ready upd st (base + i * cs) spans -> (n = 0 -> filled st (base + instants) spans) ->
      ok_in (ofold (append_step hash build v instants rows cols) (root, spans, upd) (map (fun i => i * cs) (seq i n))) st
        (fun x st' => exists r sp u, x = (r, sp, u) /\ filled st' (base + instants) sp /\ (n <> 0 -> added st' (base + instants) sp)).
    Proof.
      induction n as [|n IH]; intros i st root spans upd HF Hin HR H0; cbn [seq map ofold].
      - apply ok_ret. exists root, spans, upd. split; [reflexivity|]. split; [apply H0; reflexivity|intros; contradiction].
      - assert (Hi : i * cs < instants). { clear -Hin Hcs. assert (S i <= (instants + cs - 1) / cs) by lia.
          assert (cs * S i <= cs * ((instants + cs - 1) / cs)) by (apply Nat.mul_le_mono_l; assumption).
          pose proof (Nat.mul_div_le (instants + cs - 1) cs ltac:(lia)). lia. }
        eapply ok_bind; [apply mono_append_step; exact Hbm|intros; apply mono_ofold; intros; apply mono_append_step; exact Hbm|eapply (ok_step st root spans upd (i * cs) HF Hi HR); intros len Hlen; exact (Hbuild st (i * cs) len HF (ex_intro _ i eq_refl) Hi Hlen)|].
        intros x st1 HI HF1 (r & sp & -> & Hfil & Hrdy).
        destruct (Nat.eq_dec n 0) as [->|Nn].
        + cbn [seq map ofold]. apply ok_ret. exists r, sp, false. split; [reflexivity|].
          replace (Nat.min (i * cs + cs) instants) with instants in Hfil; [split; [apply added_filled; exact Hfil|intros _; exact Hfil]|].
          assert ((instants + cs - 1) / cs <= S i) by lia. 
          assert (instants <= cs * ((instants + cs - 1) / cs)).
          { pose proof (Nat.mod_upper_bound (instants + cs - 1) cs ltac:(lia)). pose proof (Nat.div_mod (instants + cs - 1) cs ltac:(lia)). lia. }
          nia.
        + assert (Hi' : S i * cs < instants). { clear -Hin Hcs Nn. assert (S (S i) <= (instants + cs - 1) / cs) by lia.
            assert (cs * S (S i) <= cs * ((instants + cs - 1) / cs)) by (apply Nat.mul_le_mono_l; assumption).
            pose proof (Nat.mul_div_le (instants + cs - 1) cs ltac:(lia)). lia. }
          eapply ok_post; [apply mono_ofold; intros; apply mono_append_step; exact Hbm|apply IH; auto; [lia| |lia]|].
          * replace (S i * cs) with (i * cs + cs) by lia. apply Hrdy. lia.
          * intros x st2 _ _ (r2 & sp2 & u2 & E2 & A & B). exists r2, sp2, u2. split; [exact E2|]. split; [exact A|]. intros _. apply B. exact Nn.
    Qed.

    (** The last chunk of a tree whose last span of chunks holds [e] instants has
        [e mod cs] instants, unless it is complete. *)
    Lemma ok_var_append st T e : functional st -> tree st (va_cid v) T e -> 
      forall upd : bool, T = base + (if upd then e mod cs else 0) -> (if upd then e mod cs <> 0 /\ e mod cs <= instants else e mod cs = 0) ->
      (e = 0 -> T = 0) ->
      ok_in (var_append hash build v instants rows cols upd) st (fun c st' => exists e', tree st' c (base + instants) e' /\ (e' = 0 -> base + instants = 0)).
    Proof.
      intros HF HT upd Hbase Hupd He. unfold var_append. rewrite Hvc.
      eapply ok_bind; [apply mono_tail_spans| |apply (ok_tail_spans st HF _ _ _ HT)|].
      { intros spans. apply mono_bind; [apply mono_lift|]. intros l.
        apply mono_bind; [apply mono_ofold; intros s x; apply mono_append_step; exact Hbm|]. intros [[r sp] u]. apply mono_save_spans. }
      intros l st1 _ _ (-> & m0 & rest & lo & -> & HN0 & HR & E).
      assert (HRd : ready upd st base (m0 :: rest)).
      { destruct (node_span _ _ _ _ _ _ HN0) as (s & -> & HS & Hi).
        exists s, rest, lo, (e / cs). split; [reflexivity|]. split; [eapply rest_none; exact HR|].
        pose proof (Nat.div_mod e cs ltac:(lia)) as Hdm. pose proof (Nat.mod_upper_bound e cs ltac:(lia)) as Hm. 
        split; [destruct upd; lia|].
        destruct upd.
        - destruct HN0 as (s' & Es & _ & Hn & _ & H1 & H2 & H3 & H4). injection Es as <-.
          set (q := e / cs) in *. set (p := e mod cs) in *. clearbody p q. destruct Hupd as (Hp & Hp').
          assert (El : length (sp_spans s) = S q) by nia.
          split; [exact HS|]. split; [lia|]. split; [exact El|]. split; [nia|]. intros i Hi'.
          specialize (H4 i ltac:(lia)). replace (sub_instants e cs i) with cs in H4 by (unfold sub_instants; nia). exact H4.
        - replace (e / cs * cs) with e by lia. exact HN0. }
      apply (ok_lift_bind _ _ (map (fun i => i * cs) (seq 0 ((instants + cs - 1) / cs)))).
      { unfold step_starts. destruct (Nat.eqb_spec cs 0); [lia|reflexivity]. }
      assert (Hz : (instants + cs - 1) / cs = 0 -> instants = 0).
      { intros H0. pose proof (Nat.mod_upper_bound (instants + cs - 1) cs ltac:(lia)). pose proof (Nat.div_mod (instants + cs - 1) cs ltac:(lia)) as D. rewrite H0 in D. lia. }
      destruct (Nat.eq_dec ((instants + cs - 1) / cs) 0) as [Z0|NZ].
      { rewrite Z0. cbn [seq map ofold]. specialize (Hz Z0). assert (Eu : upd = false) by (destruct upd; [exfalso; lia|reflexivity]). subst upd.
        change (ok_in (save_spans hash (m0 :: rest)) st (fun c st' => exists e', tree st' c (base + instants) e' /\ (e' = 0 -> base + instants = 0))).
        eapply ok_post; [apply mono_save_spans|apply (ok_save_spans m0 rest lo e st HN0); [eapply rest_none; exact HR|lia|exact HF]|].
        intros c st' _ _ HT'. exists e. replace (base + instants) with (lo + e) by lia. split; [exact HT'|]. intros He0. specialize (He He0). lia. }
      eapply ok_bind; [apply mono_ofold; intros s x; apply mono_append_step; exact Hbm|intros [[r sp] u]; apply mono_save_spans| |].
      - apply (ok_steps ((instants + cs - 1) / cs) 0 st (va_cid v) (m0 :: rest) upd HF); [lia| |].
        + rewrite Nat.mul_0_l, Nat.add_0_r. exact HRd.
        + intros H0. contradiction.
      - intros x st1 HI HF1 (r & sp & u & -> & _ & HA). destruct (HA NZ) as (m & rest1 & lo1 & n & -> & HR1 & HN1 & E1 & Hn1).
        eapply ok_post; [apply mono_save_spans|apply (ok_save_spans m rest1 lo1 n st1 HN1 HR1); [lia|exact HF1]|].
        intros c st' _ _ HT'. exists n. rewrite <- E1. split; [exact HT'|]. lia.
    Qed.
  End Steps.
End Tree.
