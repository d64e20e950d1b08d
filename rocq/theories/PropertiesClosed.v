(** * Properties C45, C46 and C47: what a history leaves in the store, at every moment,
    in every store, under every schedule. *)
From Coq Require Import ZArith Permutation FunctionalExtensionality.
From Verif Require Import Base BaseFacts Spec GeomModel GeomProofs BitmapModel DacModel StreamModel StreamProofs ChunkModel ChunkReads
  NodeModel NodeProofs SuperModel SuperViews SuperProofs ArrayModel ArrayProofs FixedModel FloatModel DatasetModel DatasetProofs AppendProofs HistoryModel
  KindProofs HistoryProofs.
From Verif Require SnapshotModel PropertiesNode PropertiesDataset PropertiesListing.
Import PropertiesNode PropertiesDataset PropertiesListing.
Arguments Nat.pow : simpl never.
Open Scope nat_scope.

(** ** C45 *)

(** Every object in the store is a node, and every child of it ([child],
    PropertiesNode.v) was stored before it. *)
Definition children_first (st : store) : Prop :=
  forall i c b, nth_error st i = Some (c, b) ->
    exists n, plain n /\ b = node_bytes n /\
      forall name x, child n name x -> exists j b', j < i /\ nth_error st j = Some (x, b').

(** Nothing is missing: whatever listing an object, then listing everything listed, and
    so on, meets, is there, loads and can be listed. *)
Definition complete (st : store) : Prop :=
  forall c b, In (c, b) st -> forall x, reached st c x ->
    exists n entries, retrieve st x = Ok n /\ resolver_ls st x = Ok entries.

Lemma refs_child n x : no_local n -> In x (refs n) <-> exists name, child n name x.
Proof.
  intros HN. destruct n as [d|l|[s|ch|s local]]; cbn [refs mm_refs].
  - rewrite in_app_iff, in_map_iff. split.
    + intros [(v & <- & H)|H]; [eexists; constructor; exact H|]. destruct (ds_prev d) as [p|] eqn:E; [|destruct H].
      destruct H as [<-|[]]. eexists. apply child_prev. exact E.
    + intros (name & H). inversion H; subst; [left; eauto|right]. match goal with H : ds_prev d = _ |- _ => rewrite H end. left. reflexivity.
  - split; [intros H; apply In_nth_error in H; destruct H as (i & H); eexists; constructor; exact H|].
    intros (name & H). inversion H; subst. eapply nth_error_In. eassumption.
  - split; [intros H; apply In_nth_error in H; destruct H as (i & H); eexists; constructor; exact H|].
    intros (name & H). inversion H; subst. eapply nth_error_In. eassumption.
  - split; [intros []|]. intros (name & H). inversion H.
  - cbn [no_local] in HN. subst local. cbn [flat_map]. split.
    + intros [<-|[]]. eexists. constructor.
    + intros (name & H). inversion H; subst. left. reflexivity.
Qed.
Lemma has_nth st x i : has (firstn i st) x <-> exists j b, j < i /\ nth_error st j = Some (x, b).
Proof.
  split.
  - intros (b & H). apply In_nth_error in H. destruct H as (j & H). assert (L : j < i).
    { apply Nat.lt_nge. intros C. assert (E : nth_error (firstn i st) j = None) by (apply nth_error_None; rewrite firstn_length; lia). congruence. }
    rewrite nth_error_firstn_lt in H by exact L. eauto.
  - intros (j & b & L & H). exists b. apply nth_error_In with j. rewrite nth_error_firstn_lt by exact L. exact H.
Qed.
Lemma children_first_laid st : children_first st <-> laid st.
Proof.
  split.
  - intros H i [c b] Hi. destruct (H i c b Hi) as (n & P & E & HC). exists n. split; [exact E|]. split; [exact P|].
    intros x Hx. apply has_nth. apply (refs_child n x (proj2 P)) in Hx. destruct Hx as (name & Hx). eauto.
  - intros H i c b Hi. destruct (H i _ Hi) as (n & E & P & HC). exists n. split; [exact P|]. split; [exact E|].
    intros name x Hx. apply has_nth, HC, (refs_child n x (proj2 P)). eauto.
Qed.
Lemma laid_written st : laid st -> written st.
Proof.
  intros H. apply Forall_forall. intros p Hp. apply In_nth_error in Hp. destruct Hp as (i & Hi). destruct (H i p Hi) as (n & E & P & _). eauto.
Qed.
Lemma has_got st c : has st c -> exists b, store_get st c = Some b.
Proof.
  intros (b & H). unfold store_get. destruct (find _ st) as [p|] eqn:E; [eexists; reflexivity|].
  apply (find_none _ _ E) in H. cbn [fst] in H. rewrite (proj2 (cid_eqb_spec c c) eq_refl) in H. discriminate.
Qed.
(** Everything stored in such a store loads. *)
Lemma laid_loads st c : laid st -> has st c -> exists n, retrieve st c = Ok n.
Proof.
  intros HL Hc. unfold retrieve. destruct (has_got st c Hc) as (b' & E).
  rewrite E. apply store_get_some in E.
  apply In_nth_error in E. destruct E as (i & Ei). destruct (HL i _ Ei) as (n & En & (W & _) & _). cbn [snd] in En. subst b'.
  destruct (node_reads c n [] W) as (r & Er). rewrite app_nil_r in Er. rewrite Er. cbn [bind fst]. eauto.
Qed.
Lemma laid_reached st c x : laid st -> has st c -> reached st c x -> has st x.
Proof.
  intros HL Hc H. induction H as [|c' entries e H IH E He]; [exact Hc|].
  destruct (laid_loads st c' HL IH) as (n & R). unfold resolver_ls in E. rewrite R in E. cbn [bind] in E.
  assert (Hin : exists name, In (name, le_cid e) (node_ls n)).
  { clear -E He. revert entries E He. generalize (node_ls n). induction l as [|[name y] l IH]; intros entries E He; cbn [mapM] in E; [injection E as <-; destruct He|].
    apply bind_inv in E. destruct E as (e0 & E0 & E). apply bind_inv in E. destruct E as (es & Es & E). injection E as <-.
    destruct He as [<-|He]; [|destruct (IH es Es He) as (nm & Hn); exists nm; right; exact Hn].
    apply bind_inv in E0. destruct E0 as (t & _ & E0). injection E0 as <-. exists name. left. reflexivity. }
  destruct Hin as (name & Hin). pose proof (written_retrieve st c' n (laid_written st HL) R) as NL.
  apply (laid_retrieve st c' n HL R). apply (refs_child n _ NL). exists name. apply in_node_ls; assumption.
Qed.
Lemma laid_complete st : laid st -> complete st.
Proof.
  intros HL c b Hb x Hx. assert (Hx' : has st x) by (eapply laid_reached; [exact HL|exists b; exact Hb|exact Hx]).
  destruct (laid_loads st x HL Hx') as (n & R).
  destruct (written_walkable st x (laid_written st HL) x n (reached_root _ _) R) as (_ & entries & E). eauto.
Qed.

(** A valid history that starts from such a store, for example an empty one, leaves such
    a store. What is missing from C45: as for C24. *)
Theorem C45_children_first_partial : forall hash lc lg order fuel rows cols N coords es st0,
  setting hash lg order rows cols N coords -> valid lc fuel rows cols N es ->
  let st := fst (run hash lc lg order fuel (dataset_new coords rows cols) es st0) in
  functional st -> children_first st0 -> children_first st.
Proof.
  intros hash lc lg order fuel rows cols N coords es st0 HS HV st HF H. apply children_first_laid.
  apply (run_laid hash lc lg order fuel rows cols N coords es HS HV st0 HF). apply children_first_laid, H.
Qed.

(** So if the process ends after any number of the writes, nothing that was written by
    then lacks a part. *)
Theorem C45_every_moment_partial : forall hash lc lg order fuel rows cols N coords es st0,
  setting hash lg order rows cols N coords -> valid lc fuel rows cols N es ->
  let st := fst (run hash lc lg order fuel (dataset_new coords rows cols) es st0) in
  functional st -> children_first st0 -> forall writes, complete (firstn writes st).
Proof.
  intros hash lc lg order fuel rows cols N coords es st0 HS HV st HF H writes. apply laid_complete, laid_prefix, children_first_laid.
  exact (C45_children_first_partial hash lc lg order fuel rows cols N coords es st0 HS HV HF H).
Qed.

(** The same for any store in which children come first, whatever wrote it. *)
Theorem C45_order_is_enough : forall st, children_first st -> forall writes, complete (firstn writes st).
Proof. intros st H writes. apply laid_complete, laid_prefix, children_first_laid, H. Qed.

(** ** C46 *)

(** [indep f]: whatever [f] does to a store in which nothing is missing, it does to a
    store with other objects too, if no identifier stands for two objects. *)
Definition indep_at {A} (f : op A) (w : store) : Prop := forall w' a, f w = (w', Ok a) -> laid w' ->
  forall st0, functional (st0 ++ w') -> f (st0 ++ w) = (st0 ++ w', Ok a).
Definition indep {A} (f : op A) : Prop := forall w, indep_at f w.

Lemma indep_ret {A} (x : A) : indep (oret x).
Proof. intros w w' a H _ st0 _. injection H as <- <-. reflexivity. Qed.
Lemma indep_lift {A} (r : res A) : indep (olift r).
Proof. intros w w' a H _ st0 _. injection H as <- ->. reflexivity. Qed.
Lemma indep_load c : indep (oload c).
Proof.
  intros w w' a H _ st0 HF. unfold oload in *. injection H as <- H. f_equal. eapply get_mm_incl; [|exact HF|exact H]. apply incl_appr, incl_refl.
Qed.
Lemma indep_save hash n : indep (osave hash n).
Proof. intros w w' a H _ st0 _. unfold osave, save in *. injection H as <- <-. rewrite app_assoc. reflexivity. Qed.
Lemma indep_bind_at {A B} (m : op A) (f : A -> op B) w : indep_at m w -> (forall x, mono (f x)) ->
  (forall w1 x, m w = (w1, Ok x) -> indep_at (f x) w1) -> indep_at (obind m f) w.
Proof.
  intros Hm Mf Hf w' a H HL st0 HF. unfold obind in *. destruct (m w) as [w1 r] eqn:E. destruct r as [x| | |]; try discriminate.
  destruct (Mf x w1) as (u & Eu). rewrite H in Eu. cbn [fst] in Eu.
  rewrite (Hm w1 x E) with (st0 := st0); [eapply Hf; try eassumption; reflexivity| |].
  - rewrite Eu in HL. apply (laid_prefix _ (length w1)) in HL. rewrite firstn_app, Nat.sub_diag, firstn_all in HL. cbn [firstn] in HL. rewrite app_nil_r in HL. exact HL.
  - eapply functional_incl; [|exact HF]. rewrite Eu. apply incl_app; [apply incl_appl, incl_refl|]. apply incl_appr, incl_appl, incl_refl.
Qed.
Lemma indep_bind {A B} (m : op A) (f : A -> op B) : indep m -> (forall x, mono (f x)) -> (forall x, indep (f x)) -> indep (obind m f).
Proof. intros Hm Mf Hf w. apply indep_bind_at; [apply Hm|exact Mf|]. intros w1 x _. apply Hf. Qed.
Lemma indep_if {A} (b : bool) (m1 m2 : op A) : indep m1 -> indep m2 -> indep (if b then m1 else m2).
Proof. destruct b; trivial. Qed.
Ltac indep_auto :=
  repeat first
    [ apply indep_bind | apply indep_ret | apply indep_lift | apply indep_load | apply indep_save | apply indep_if | assumption
    | match goal with |- forall _, _ => intros ? | |- indep (let '(_, _) := ?p in _) => destruct p | |- indep (match ?p with [] => _ | _ :: _ => _ end) => destruct p end
    | progress mono_auto ].

Lemma indep_span_append hash s m : indep (span_append hash s m).
Proof. unfold span_append. indep_auto. Qed.
Lemma indep_span_update hash s m : indep (span_update hash s m).
Proof. apply indep_span_append. Qed.
Lemma indep_tail_loop cs : forall fuel m anc, indep (tail_loop fuel cs m anc).
Proof. induction fuel as [|fuel IH]; intros m anc; cbn [tail_loop]; indep_auto; auto using mono_tail_loop. Qed.
Lemma indep_tail_spans cs c : indep (tail_spans cs c).
Proof. unfold tail_spans. indep_auto; auto using mono_tail_loop, indep_tail_loop. Qed.
Lemma indep_update_up hash : forall spans m, indep (update_up hash m spans).
Proof. induction spans as [|p rest IH]; intros m; cbn [update_up]; indep_auto; auto using mono_span_update, mono_update_up, indep_span_update. Qed.
Lemma indep_save_spans hash spans : indep (save_spans hash spans).
Proof. unfold save_spans. destruct spans as [|m rest]; indep_auto. apply indep_update_up. Qed.
Lemma indep_open_loop hash ss rows cols enc : forall spans s l, indep (open_loop hash ss rows cols enc s l spans).
Proof.
  induction spans as [|p rest IH]; intros s l; cbn [open_loop]; indep_auto; auto using mono_span_append, mono_open_loop, indep_span_append.
Qed.
Lemma indep_create_open_span hash ss cs rows cols enc c : indep (create_open_span hash ss cs rows cols enc c).
Proof.
  unfold create_open_span. apply indep_bind; [apply indep_tail_spans| |].
  - intros [|l rest]; [apply mono_lift|]. apply mono_bind; [apply mono_open_loop|]. intros [s a]. apply mono_bind; [apply mono_update_up|intros x; apply mono_save].
  - intros [|l rest]; [apply indep_lift|]. apply indep_bind; [apply indep_open_loop| |].
    + intros [s a]. apply mono_bind; [apply mono_update_up|intros x; apply mono_save].
    + intros [s a]. apply indep_bind; [apply indep_update_up|intros x; apply mono_save|intros x; apply indep_save].
Qed.
Lemma indep_tail_data cs c : indep (tail_data cs c).
Proof.
  unfold tail_data. apply indep_bind; [apply indep_tail_spans| |]; intros [|l rest]; [mono_auto..|apply indep_lift|]. indep_auto.
Qed.
Lemma indep_append_step hash build v instants rows cols x start : (forall a b, mono (build a b)) -> (forall a b, indep (build a b)) ->
  indep (append_step hash build v instants rows cols x start).
Proof.
  intros Mb Hb. unfold append_step. destruct x as [[root spans] upd]. apply indep_bind; [apply Hb| |]; intros chunk;
    (destruct spans as [|m rest]; [first [apply mono_lift|apply indep_lift]|]).
  - apply mono_bind; [apply mono_lift|]. intros s. apply mono_bind.
    + apply mono_if; [|apply mono_ret]. apply mono_bind; [apply mono_save_spans|]. intros r1.
      apply mono_bind; [apply mono_create_open_span|]. intros r2. apply mono_bind; [apply mono_tail_spans|].
      intros [|m' rest']; mono_auto.
    + intros [[r s'] rest']. mono_auto.
  - assert (M : forall y : cid * span * list mmstruct, mono (let '(r, s', rest') := y in
        obind (if upd then span_update hash s' chunk else span_append hash s' chunk) (fun s'' => oret (r, MSpan s'' :: rest', false)))).
    { intros [[r s'] rest']. apply mono_bind; [apply mono_if; [apply mono_span_update|apply mono_span_append]|intros; apply mono_ret]. }
    assert (M1 : forall r2, mono (obind (tail_spans (va_chunk_size v) r2) (fun spans' => match spans' with
        | [] => olift Panic
        | m' :: rest' => obind (olift (as_span m')) (fun s' => if length (sp_spans s') =? 0 then oret (r2, s', rest') else olift Panic) end))).
    { intros r2. apply mono_bind; [apply mono_tail_spans|]. intros [|m' rest']; mono_auto. }
    apply indep_bind; [apply indep_lift| |]; intros s.
    + apply mono_bind; [|exact M]. apply mono_if; [|apply mono_ret]. apply mono_bind; [apply mono_save_spans|]. intros r1.
      apply mono_bind; [apply mono_create_open_span|]. intros r2. apply M1.
    + apply indep_bind; [|exact M|].
      * apply indep_if; [|apply indep_ret]. apply indep_bind; [apply indep_save_spans| |]; intros r1.
        { apply mono_bind; [apply mono_create_open_span|]. intros r2. apply M1. }
        apply indep_bind; [apply indep_create_open_span|exact M1|]. intros r2.
        apply indep_bind; [apply indep_tail_spans| |]; intros [|m' rest']; mono_auto; indep_auto.
      * intros [[r s'] rest']. apply indep_bind; [apply indep_if; [apply indep_span_update|apply indep_span_append]|intros; apply mono_ret|intros; apply indep_ret].
Qed.
Lemma indep_ofold {S X} (f : S -> X -> op S) : (forall s x, mono (f s x)) -> (forall s x, indep (f s x)) -> forall l s, indep (ofold f s l).
Proof.
  intros Mf Hf. induction l as [|x l IH]; intros s; cbn [ofold]; [apply indep_ret|]. apply indep_bind; [apply Hf|intros; apply mono_ofold, Mf|exact IH].
Qed.
Lemma indep_var_append hash build v instants rows cols upd : (forall a b, mono (build a b)) -> (forall a b, indep (build a b)) ->
  indep (var_append hash build v instants rows cols upd).
Proof.
  intros Mb Hb. unfold var_append.
  assert (M : forall l starts, mono (obind (ofold (append_step hash build v instants rows cols) (va_cid v, l, upd) starts)
      (fun x => let '(_, spans0, _) := x in save_spans hash spans0))).
  { intros l starts. apply mono_bind; [apply mono_ofold; intros s x; apply mono_append_step; exact Mb|]. intros [[r sp] u]. apply mono_save_spans. }
  apply indep_bind; [apply indep_tail_spans| |]; intros spans.
  - apply mono_bind; [apply mono_lift|]. intros l. apply M.
  - apply indep_bind; [apply indep_lift|intros l; apply M|]. intros l. apply indep_bind.
    + apply indep_ofold; intros s x; [apply mono_append_step; exact Mb|apply indep_append_step; assumption].
    + intros [[r sp] u]. apply mono_save_spans.
    + intros [[r sp] u]. apply indep_save_spans.
Qed.

(** Building reads nothing. *)
Lemma save_tiles_indep hash st0 : forall tiles s,
  let s' := fold_left (save_tile hash) tiles s in
  fold_left (save_tile hash) tiles (mkSave (st0 ++ ss_store s) (ss_links s) (ss_refs s) (ss_sizes s) (ss_elided s) (ss_snapshots s) (ss_logs s)) =
  mkSave (st0 ++ ss_store s') (ss_links s') (ss_refs s') (ss_sizes s') (ss_elided s') (ss_snapshots s') (ss_logs s').
Proof.
  induction tiles as [|x tiles IH]; intros s; cbn [fold_left]; [reflexivity|]. cbv zeta in IH. rewrite <- IH. f_equal.
  unfold save_tile. destruct (snd x) as [y|]; [|reflexivity]. cbn [save ss_store ss_links]. destruct (link_index _ _); cbn [ss_store ss_links ss_refs ss_sizes ss_elided ss_snapshots ss_logs]; rewrite app_assoc; reflexivity.
Qed.
Lemma super_build_indep {A} hash (E : elem A) k lc st0 levels : forall g instants rows cols bits w w' b,
  super_build hash E k lc levels g instants rows cols bits w = Ok (w', b) ->
  super_build hash E k lc levels g instants rows cols bits (st0 ++ w) = Ok (st0 ++ w', b).
Proof.
  induction levels as [|level sub IH]; intros g instants rows cols bits w w' b H; cbn [super_build] in *; (destruct (negb _) in *; [discriminate|]); [discriminate|].
  apply bind_inv in H. destruct H as (cs & Ecs & H). rewrite Ecs. cbn [bind]. apply bind_inv in H. destruct H as ([w1 tiles] & Ef & H).
  assert (G : forall l w0 ts, foldM (build_tile E k lc (fun g' h w b s => super_build hash E k lc sub g' instants h w b s) sub g instants rows cols bits cs) (w0, ts) l = Ok (w1, tiles) ->
    foldM (build_tile E k lc (fun g' h w b s => super_build hash E k lc sub g' instants h w b s) sub g instants rows cols bits cs) (st0 ++ w0, ts) l = Ok (st0 ++ w1, tiles)).
  { clear -IH. induction l as [|rc l IHl]; intros w0 ts H; cbn [foldM] in *; [injection H as -> ->; reflexivity|].
    apply bind_inv in H. destruct H as ([w2 ts2] & E2 & H). apply IHl in H.
    replace (build_tile E k lc (fun g' h w b s => super_build hash E k lc sub g' instants h w b s) sub g instants rows cols bits cs (st0 ++ w0, ts) rc) with (Ok (st0 ++ w2, ts2)); [exact H|].
    symmetry. unfold build_tile in *. destruct (_ || _); [injection E2 as <- <-; reflexivity|].
    apply bind_inv in E2. destruct E2 as (mm & Em & E2). rewrite Em. cbn [bind]. destruct (forallb _ _); [injection E2 as <- <-; reflexivity|].
    apply bind_inv in E2. destruct E2 as (lf & El & E2). rewrite El. cbn [bind]. apply bind_inv in E2. destruct E2 as (b & Eb & E2). rewrite Eb. cbn [bind].
    apply bind_inv in E2. destruct E2 as ([w3 y] & Ey & E2). injection E2 as <- <-. destruct lf.
    - apply bind_inv in Ey. destruct Ey as (y' & Ey & E3). injection E3 as <- <-. rewrite Ey. reflexivity.
    - apply IH in Ey. rewrite Ey. reflexivity. }
  apply G in Ef. match goal with |- bind ?x _ = _ => replace x with (Ok (st0 ++ w1, tiles)) by (symmetry; exact Ef) end. cbn [bind]. apply bind_inv in H. destruct H as (mx & Emx & H). rewrite Emx. cbn [bind].
  apply bind_inv in H. destruct H as (mn & Emn & H). rewrite Emn. cbn [bind].
  pose proof (save_tiles_indep hash st0 tiles (mkSave w1 [] [] 0 0 0 0)) as SV. cbn [ss_store ss_links ss_refs ss_sizes ss_elided ss_snapshots ss_logs] in SV. rewrite SV.
  cbn [save ss_store ss_links ss_refs ss_sizes ss_elided ss_snapshots ss_logs] in *.
  apply bind_inv in H. destruct H as (d1 & E1 & H). rewrite E1. cbn [bind]. apply bind_inv in H. destruct H as (d2 & E2 & H). rewrite E2. cbn [bind].
  injection H as <- <-. rewrite app_assoc. reflexivity.
Qed.
Lemma indep_build {A} hash lc (D : dtype A) v data a b : indep (build_chunk hash lc D v data a b).
Proof.
  intros w w' m H _ st0 _. unfold build_chunk in *. destruct (a3_shape data) as [[n h] c].
  unfold obind, olift, oret in *. destruct (el_bits _ _ _) as [bits| | |]; try discriminate.
  destruct (super_op _ _ _ _ _ _ _ _ _ _ w) as [w1 [x| | |]] eqn:E; try discriminate. injection H as <- <-.
  apply super_op_inv in E. rewrite (super_op_ok _ _ _ _ _ _ _ _ _ _ _ _ _ (super_build_indep _ _ _ _ st0 _ _ _ _ _ _ _ _ _ E)). reflexivity.
Qed.

(** Reading the last chunk of a variable. *)
Lemma tail_spans_pure cs root w : fst (tail_spans cs root w) = w.
Proof.
  unfold tail_spans, obind, oload, olift. destruct (get_mm w root) as [m0| | |]; try reflexivity. destruct (as_span m0) as [s| | |]; try reflexivity.
  generalize (S (sp_stride s)) m0 (@nil mmstruct). clear. induction n as [|n IH]; intros m0 l; cbn [tail_loop]; [reflexivity|].
  unfold obind at 1, olift at 1. destruct (as_span m0) as [s| | |]; try reflexivity. destruct (cs <? sp_stride s); [|reflexivity].
  unfold obind, olift, oload. destruct (span_last s) as [c| | |]; try reflexivity. destruct (get_mm w c) as [m'| | |]; try reflexivity. apply IH.
Qed.
Lemma tail_data_pure cs root w : fst (tail_data cs root w) = w.
Proof.
  unfold tail_data, obind. pose proof (tail_spans_pure cs root w) as P. destruct (tail_spans cs root w) as [w1 r]. cbn [fst] in P. subst w1.
  destruct r as [[|t rest]| | |]; try reflexivity. unfold olift. destruct (as_span t) as [s| | |]; try reflexivity. destruct (_ =? 0); [reflexivity|].
  destruct (span_last s) as [c| | |]; try reflexivity. unfold oload. destruct (get_mm w c) as [m'| | |]; try reflexivity. destruct (instants_of m') as [k| | |]; reflexivity.
Qed.
Lemma tail_data_loaded cs root w w' m : tail_data cs root w = (w', Ok (Some m)) -> w' = w /\ exists c, get_mm w c = Ok m.
Proof.
  intros H. pose proof (tail_data_pure cs root w) as P. rewrite H in P. split; [exact P|]. revert H.
  unfold tail_data, obind. pose proof (tail_spans_pure cs root w) as P1. destruct (tail_spans cs root w) as [w1 r]. cbn [fst] in P1. subst w1.
  destruct r as [[|t rest]| | |]; try discriminate. unfold olift. destruct (as_span t) as [s| | |]; try discriminate.
  destruct (_ =? 0); [discriminate|]. destruct (span_last s) as [c| | |]; try discriminate. unfold oload. destruct (get_mm w c) as [m'| | |] eqn:Em; try discriminate.
  destruct (instants_of m') as [k| | |]; try discriminate. unfold oret. intros H. injection H as _ H. destruct (k <? cs); [|discriminate]. injection H as ->. eauto.
Qed.
Lemma indep_read_tail {A} (D : dtype A) order fuel w c m : get_mm w c = Ok m -> indep_at (read_tail D order fuel m) w.
Proof.
  intros G w' a H HL st0 HF. unfold read_tail in *. injection H as <- H. f_equal. rewrite <- H. clear H a.
  apply bind_ext; [reflexivity|]. intros [[n h] k] _.
  assert (Hc : has w c) by (eapply has_get_mm, G). pose proof (written_walkable w c (laid_written w HL)) as HW.
  assert (HC : copied w (st0 ++ w) c).
  { intros x Hx. apply (laid_reached w c x HL Hc) in Hx. destruct (has_got w x Hx) as (b & Eb). rewrite Eb.
    apply store_get_in; [exact HF|]. apply in_or_app. right. apply store_get_some, Eb. }
  rewrite (mm_fill_window_copied w (st0 ++ w) c HW HC); [reflexivity|]. eapply loaded_covered; [exact HW|constructor|exact G].
Qed.
Lemma indep_append {A} hash lc (D : dtype A) order fuel d name data : indep (dataset_append hash lc D order fuel d name data).
Proof.
  unfold dataset_append. destruct (find_var name (ds_vars d)) as [v|]; [|apply indep_lift].
  assert (MV : forall a' upd, mono (let '(n, rows, cols) := a3_shape a' in var_append hash (build_chunk hash lc D v a') v n rows cols upd)).
  { intros a' upd. destruct (a3_shape a') as [[n h] w]. apply mono_var_append. intros; apply mono_build. }
  assert (IV : forall a' upd, indep (let '(n, rows, cols) := a3_shape a' in var_append hash (build_chunk hash lc D v a') v n rows cols upd)).
  { intros a' upd. destruct (a3_shape a') as [[n h] w]. apply indep_var_append; intros; [apply mono_build|apply indep_build]. }
  assert (MT : forall tail : option mmstruct, mono (match tail with
    | Some m => obind (read_tail D order fuel m) (fun a => obind (olift (join3 a data)) (fun a' =>
        let '(n, rows, cols) := a3_shape a' in var_append hash (build_chunk hash lc D v a') v n rows cols true))
    | None => let '(n, rows, cols) := a3_shape data in var_append hash (build_chunk hash lc D v data) v n rows cols false
    end)).
  { intros [m|]; [|apply MV]. apply mono_bind; [intros st; apply extends_refl|]. intros a. apply mono_bind; [apply mono_lift|]. intros a'. apply MV. }
  intros w. apply indep_bind_at; [apply indep_tail_data|intros tail; apply mono_bind; [apply MT|intros; apply mono_ret]|].
  intros w1 tail E. apply indep_bind_at; [|intros; apply mono_ret|intros; apply indep_ret].
  destruct tail as [m|]; [|apply IV]. destruct (tail_data_loaded _ _ _ _ _ E) as (-> & c & G).
  apply indep_bind_at; [eapply indep_read_tail, G|intros a; apply mono_bind; [apply mono_lift|]; intros a'; apply MV|].
  intros w2 a _. apply indep_bind; [apply indep_lift|intros a'; apply MV|]. intros a'. apply IV.
Qed.
Lemma indep_event hash lc lg order fuel d e : indep (run_event hash lc lg order fuel d e).
Proof.
  destruct e as [c|t n a| |]; cbn [run_event].
  - unfold add_variable. apply indep_bind; [apply indep_save|intros; apply mono_ret|intros; apply indep_ret].
  - apply indep_append.
  - apply indep_bind; [apply indep_save|intros; apply mono_ret|intros; apply indep_ret].
  - apply indep_bind; [apply indep_save|intros c st; apply extends_refl|]. intros c w w' a H HL st0 HF. injection H as <- H. f_equal.
    eapply get_dataset_incl; [|exact HF|exact H]. apply incl_appr, incl_refl.
Qed.
Lemma indep_run hash lc lg order fuel d es : indep (run hash lc lg order fuel d es).
Proof. apply indep_ofold; intros; [apply mono_event|apply indep_event]. Qed.

(** Run the history in an empty store: that gives all the objects, [w], and the dataset.
    In a store that has anything else in it, it writes the same objects in the same
    order and gives the same dataset, with the same identifiers, if no identifier stands
    for two objects. What is missing from C46: as for C24. *)
Theorem C46_any_store_partial : forall hash lc lg order fuel rows cols N coords es w r,
  setting hash lg order rows cols N coords -> valid lc fuel rows cols N es ->
  run hash lc lg order fuel (dataset_new coords rows cols) es [] = (w, r) -> functional w ->
  exists d, r = Ok d /\ forall st0, functional (st0 ++ w) ->
    run hash lc lg order fuel (dataset_new coords rows cols) es st0 = (st0 ++ w, Ok d) /\
    dataset_commit hash d (st0 ++ w) = (st0 ++ fst (dataset_commit hash d w), snd (dataset_commit hash d w)).
Proof.
  intros hash lc lg order fuel rows cols N coords es w r HS HV E HF.
  pose proof (run_result hash lc lg order fuel rows cols N coords es HS HV []) as HR.
  pose proof (run_laid hash lc lg order fuel rows cols N coords es HS HV []) as HL.
  rewrite E in HR, HL. cbn [fst snd] in HR, HL. specialize (HL HF laid_nil). destruct (HR HF) as (d & -> & _).
  exists d. split; [reflexivity|]. intros st0 HF0. split.
  - pose proof (indep_run hash lc lg order fuel (dataset_new coords rows cols) es [] w d E HL st0 HF0) as H. rewrite app_nil_r in H. exact H.
  - unfold dataset_commit, osave, save. cbn [fst snd]. rewrite app_assoc. reflexivity.
Qed.
(** So two stores give the same identifiers. *)
Theorem C46_same_identifiers_partial : forall hash lc lg order fuel rows cols N coords es w,
  setting hash lg order rows cols N coords -> valid lc fuel rows cols N es ->
  w = fst (run hash lc lg order fuel (dataset_new coords rows cols) es []) ->
  forall st1 st2, functional (st1 ++ w) -> functional (st2 ++ w) ->
  exists d, snd (run hash lc lg order fuel (dataset_new coords rows cols) es st1) = Ok d /\
            snd (run hash lc lg order fuel (dataset_new coords rows cols) es st2) = Ok d /\
            snd (dataset_commit hash d (fst (run hash lc lg order fuel (dataset_new coords rows cols) es st1))) =
            snd (dataset_commit hash d (fst (run hash lc lg order fuel (dataset_new coords rows cols) es st2))).
Proof.
  intros hash lc lg order fuel rows cols N coords es w HS HV Ew st1 st2 F1 F2.
  destruct (run hash lc lg order fuel (dataset_new coords rows cols) es []) as [w' r] eqn:E. cbn [fst] in Ew. subst w'.
  destruct (C46_any_store_partial hash lc lg order fuel rows cols N coords es w r HS HV E) as (d & _ & H).
  { eapply functional_incl; [|exact F1]. apply incl_appr, incl_refl. }
  exists d. destruct (H st1 F1) as (-> & _). destruct (H st2 F2) as (-> & _). auto.
Qed.

(** ** C47 *)

(** Calls that write to different places can be made in any order. *)
Lemma run3_order {A} (R : reader A) l1 l2 (a : array3 A) n h w : a3_shape a = (n, h, w) -> Permutation l1 l2 -> NoDup (map fst l1) ->
  (forall t r c v, In (t, r, c, v) l1 -> t < n /\ r < h /\ c < w) -> run3 R a l1 = run3 R a l2.
Proof.
  intros Ea P HN HB.
  destruct (run3_spec R l1 a n h w Ea HN HB) as (a1 & E1 & S1 & W1 & K1).
  assert (HN2 : NoDup (map fst l2)) by (eapply Permutation_NoDup; [apply Permutation_map; exact P|exact HN]).
  destruct (run3_spec R l2 a n h w Ea HN2) as (a2 & E2 & S2 & W2 & K2).
  { intros t r c v Hx. eapply HB. eapply Permutation_in; [apply Permutation_sym; exact P|exact Hx]. }
  rewrite E1, E2. f_equal. destruct a1 as [s1 f1], a2 as [s2 f2]. cbn [a3_shape a3_at] in *. rewrite S1, S2. f_equal.
  do 3 (apply functional_extensionality; intros ?).
  destruct (in_dec (fun u v : nat * nat * nat => ltac:(repeat decide equality)) (x, x0, x1) (map fst l1)) as [Hi|Hi].
  - apply in_map_iff in Hi. destruct Hi as ([[[t r] c] [v b]] & Eq & Hi). cbn [fst] in Eq. injection Eq as <- <- <-.
    rewrite (W1 _ _ _ _ _ Hi). symmetry. apply W2. eapply Permutation_in; [exact P|exact Hi].
  - rewrite K1 by exact Hi. symmetry. apply K2. intros C. apply Hi. eapply Permutation_in; [apply Permutation_map, Permutation_sym; exact P|exact C].
Qed.

Lemma obind_at {A B} (m : op A) (f : A -> op B) st st1 x : m st = (st1, Ok x) -> obind m f st = f x st1.
Proof. intros E. unfold obind. rewrite E. reflexivity. Qed.
Lemma obind_ext {A B} (m m' : op A) (f : A -> op B) st : m st = m' st -> obind m f st = obind m' f st.
Proof. intros E. unfold obind. rewrite E. reflexivity. Qed.

Section Schedules.
  Variables (hash : bytes -> cid) (lc : nat -> nat) (lg : f64 -> nat) (order1 order2 : list call -> list call) (fuel rows cols N : nat)
            (coords : coordinate * coordinate * coordinate) (es : list event).
  Hypothesis HS1 : setting hash lg order1 rows cols N coords.
  Hypothesis HO2 : forall l, Permutation l (order2 l).
  Hypothesis HV : valid lc fuel rows cols N es.

  Lemma read_tail_order {A} (D : dtype A) st m n f : 1 <= n -> (exists d, d <= fuel /\ view st d m n rows cols f) ->
    read_tail D order1 fuel m st = read_tail D order2 fuel m st.
  Proof using HS1 HO2.
    intros Hn (dp & Hd & [V1 V2 V3 V4]). destruct HS1 as [S1 S2 SL [S3 S3'] [S4 S4'] S5 S6].
    destruct (V4 fuel 0 n 0 rows 0 cols Hd) as (out & Eo & Po); [lia|lia|unfold window_in; lia|].
    unfold read_tail. rewrite V1. cbn [bind]. rewrite Eo. cbn [bind]. f_equal.
    pose proof (Permutation_trans (Permutation_sym Po) (S2 out)) as P2.
    apply run3_order with n rows cols; [reflexivity| | |].
    - eapply Permutation_trans; [apply Permutation_sym, S2|apply HO2].
    - eapply Permutation_NoDup; [apply Permutation_map; exact P2|]. apply window3_nodup.
    - intros t r c v Hx. apply (Permutation_in _ (Permutation_sym P2)) in Hx. apply window3_in in Hx. lia.
  Qed.
  Lemma append_order c d v data g T st : config_ok lc fuel rows cols c -> functional st -> find_var (cf_name c) (ds_vars d) = Some v -> var_of c v ->
    var_tree hash lc lg rows cols c g st (va_cid v) T ->
    dataset_append hash lc (dt_of lg (cf_type c)) order1 fuel d (cf_name c) data st =
    dataset_append hash lc (dt_of lg (cf_type c)) order2 fuel d (cf_name c) data st.
  Proof using HS1 HO2.
    intros Cok HF Hv (V1 & V2 & V3 & V4 & V5 & V6) (e & _ & HT). pose proof HS1 as [S1 S2 SL [S3 S3'] [S4 S4'] S5 S6].
    destruct Cok as [C1 C2 [C3 C3'] [C4 C4'] C5 C6 C7 C8].
    unfold dataset_append. rewrite Hv, V4.
    assert (HT' : ok_in (tail_data (cf_chunk c) (va_cid v)) st (fun o st' => st' = st /\
      match o with
      | Some m => e mod cf_chunk c <> 0 /\ e mod cf_chunk c <= T /\
          leaf rows cols (leaf_ok (chunk_V hash lc lg rows cols (cf_levels c) (cf_round c) (cf_type c)) g) st (T - e mod cf_chunk c) (e mod cf_chunk c) m
      | None => e mod cf_chunk c = 0
      end)).
    { apply (ok_tail_data rows cols (cf_chunk c) (cf_span c) (enc_of (cf_type c)) _ C4 C3 st (va_cid v) T e HF HT). }
    pose proof (tail_data_pure (cf_chunk c) (va_cid v) st) as Est.
    destruct (tail_data (cf_chunk c) (va_cid v) st) as [s1 r] eqn:E. cbn [fst] in Est. subst s1.
    unfold ok_in in HT'. rewrite E in HT'. cbn [fst snd] in HT'. destruct (HT' HF) as (o & -> & (_ & Ho) & _).
    rewrite !(obind_at _ _ _ _ _ E).
    destruct o as [m|]; [|reflexivity]. destruct Ho as (Hp & _ & (_ & _ & HL)).
    destruct (HL st (incl_refl _) HF) as ((f & W & _) & _).
    apply obind_ext. apply obind_ext.
    rewrite (read_tail_order (dt_of lg (cf_type c)) st m (e mod cf_chunk c) f); [reflexivity|clear -Hp; lia|].
    exists (S (length (cf_levels c))). split; [exact C8|exact W].
  Qed.

  Lemma event_order before e after d st : es = before ++ e :: after -> functional st -> inv hash lc lg rows cols coords es st d before ->
    run_event hash lc lg order1 fuel d e st = run_event hash lc lg order2 fuel d e st.
  Proof using HS1 HO2 HV.
    intros E HF HI. destruct e as [c|t name data| |]; try reflexivity. cbn [run_event].
    pose proof HI as [I1 I2 I3 I4 I5 I6]. pose proof HV as [V1 V2 V3 V4 V5].
    assert (V1b : NoDup (map cf_name (configs before))).
    { rewrite E, configs_app, map_app in V1. apply NoDup_app_l in V1. exact V1. }
    destruct (V4 before t name data after E) as (c & K1 & K2 & K3 & K4). subst t name.
    destruct (find_config _ _ _ (var_ok_name hash lc lg rows cols es st before) I6 V1b c K1) as (v & Ev & Hvar & HT).
    eapply append_order; try eassumption. rewrite Forall_forall in V3. apply V3. rewrite E, configs_app. apply in_or_app. left. exact K1.
  Qed.
  Lemma run_order : forall after before d st, es = before ++ after -> functional (fst (run hash lc lg order1 fuel d after st)) -> inv hash lc lg rows cols coords es st d before ->
    run hash lc lg order1 fuel d after st = run hash lc lg order2 fuel d after st.
  Proof using HS1 HO2 HV.
    pose proof HS1 as [S1 S2 SL [S3 S3'] [S4 S4'] S5 S6].
    induction after as [|e after IH]; intros before d st E HF HI; [reflexivity|].
    assert (F0 : functional st) by (eapply functional_incl; [|exact HF]; apply mono_incl, mono_run).
    pose proof (ok_event hash lc lg order1 fuel rows cols N S1 S2 SL S3 S4 S3' S4' S5 coords es S6 HV before e after d st E F0 HI) as OK.
    unfold run in *. cbn [ofold] in *. unfold obind at 1 in HF. unfold obind at 1. unfold obind at 1.
    rewrite <- (event_order before e after d st E F0 HI). unfold ok_in in OK.
    destruct (run_event hash lc lg order1 fuel d e st) as [st1 r] eqn:E1. cbn [fst snd] in OK.
    destruct r as [d1| | |]; try reflexivity.
    destruct OK as (d2 & E2 & HI1 & _).
    { eapply functional_incl; [|exact HF]. apply mono_incl, (mono_run hash lc lg order1 fuel d1 after). }
    injection E2 as <-. apply (IH (before ++ [e])); [rewrite E, <- app_assoc; reflexivity|exact HF|exact HI1].
  Qed.
End Schedules.

(** Whatever the order in which the concurrent reads within each append finish, the same
    objects are written, in the same order, and the same dataset results. What is missing
    from C47: as for C24. *)
Theorem C47_any_schedule_partial : forall hash lc lg order1 order2 fuel rows cols N coords es st0,
  setting hash lg order1 rows cols N coords -> setting hash lg order2 rows cols N coords -> valid lc fuel rows cols N es ->
  functional (fst (run hash lc lg order1 fuel (dataset_new coords rows cols) es st0)) ->
  run hash lc lg order1 fuel (dataset_new coords rows cols) es st0 = run hash lc lg order2 fuel (dataset_new coords rows cols) es st0.
Proof.
  intros hash lc lg order1 order2 fuel rows cols N coords es st0 HS1 HS2 HV HF.
  apply (run_order hash lc lg order1 order2 fuel rows cols N coords es HS1 (se_order _ _ _ _ _ _ _ HS2) HV es []); [reflexivity|exact HF|apply start_inv].
Qed.

(** ** Concrete cases *)
Definition ex_other : store := [(ex_cid 1, [1; 2; 3]%N); nth 3 (fst ex_run) (ex_cid 2, [])].
Lemma ex_run_checked : ((20 <? length (fst ex_run)) && functional_check (ex_other ++ fst ex_run))%bool = true.
Proof. vm_compute. reflexivity. Qed.
Example C45_example : setting ex_hash ex_lg (@rev call) 5 6 1000 ex_coords /\ valid ex_lc 4 5 6 1000 ex_history /\ functional (fst ex_run) /\
  children_first [] /\ 20 < length (fst ex_run).
Proof.
  destruct C24_example as (H1 & H2 & H3 & _). split; [exact H1|]. split; [exact H2|]. split; [exact H3|].
  split; [intros i c b H; destruct i; discriminate|]. destruct (andb_prop _ _ ex_run_checked) as [L _]. revert L.
  generalize (length (fst ex_run)). intros n L. apply Nat.ltb_lt. exact L.
Qed.
(** A parent without its child is not complete. *)
Example C45_incomplete : ~ complete [(ex_cid 1, node_bytes (NLinks [ex_cid 2]))].
Proof.
  intros H. assert (R : reached [(ex_cid 1, node_bytes (NLinks [ex_cid 2]))] (ex_cid 1) (ex_cid 2)).
  { change (ex_cid 2) with (le_cid (mkEntry (ex_cid 2) (LIndex 0) None None)) at 2.
    eapply (reached_entry _ _ (ex_cid 1) [mkEntry (ex_cid 2) (LIndex 0) None None]); [constructor|vm_compute; reflexivity|left; reflexivity]. }
  destruct (H _ _ (or_introl eq_refl) _ R) as (n & en & E & _). vm_compute in E. discriminate.
Qed.

(** The history in a store that already has one of its own objects and one other. *)
Example C46_example : functional (fst ex_run) /\ functional (ex_other ++ fst ex_run) /\
  nth_error (fst ex_run) 3 = Some (nth 3 (fst ex_run) (ex_cid 2, [])).
Proof.
  split; [apply C24_example|]. split; [apply functional_checked, (andb_prop _ _ ex_run_checked)|].
  destruct (andb_prop _ _ ex_run_checked) as [L _]. apply Nat.ltb_lt in L. apply nth_error_nth'. lia.
Qed.

(** Two schedules that are not the same: the writes of the reads from first to last, and
    from last to first. *)
Example C47_example : setting ex_hash ex_lg (@rev call) 5 6 1000 ex_coords /\ setting ex_hash ex_lg (fun l => l) 5 6 1000 ex_coords /\
  valid ex_lc 4 5 6 1000 ex_history /\ functional (fst ex_run) /\ exists l, @rev call l <> l.
Proof.
  destruct C24_example as (H1 & H2 & H3 & _). split; [exact H1|]. split.
  { destruct H1 as [A1 A2 A3 A4 A5 A6 A7]. constructor; auto. }
  split; [exact H2|]. split; [exact H3|]. exists [(0, 0, 0, (1%Z, 0)); (0, 0, 1, (2%Z, 0))]. discriminate.
Qed.

Print Assumptions C45_children_first_partial.
Print Assumptions C45_every_moment_partial.
Print Assumptions C45_order_is_enough.
Print Assumptions C46_any_store_partial.
Print Assumptions C46_same_identifiers_partial.
Print Assumptions C47_any_schedule_partial.
