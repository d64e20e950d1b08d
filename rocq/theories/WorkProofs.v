(** * Programs that share a store: proofs. *)
From Verif Require Import Base BaseFacts Spec GeomModel BitmapModel DacModel StreamModel ChunkModel NodeModel NodeProofs SuperModel SuperViews SuperProofs
  ArrayModel ArrayProofs FixedModel FloatModel DatasetModel DatasetProofs AppendProofs HistoryModel KindProofs HistoryProofs SessionModel SessionProofs FrameProofs.
From Verif Require Import RequestModel RequestProofs RequestReach WorkModel.
From Verif Require PropertiesListing PropertiesClosed.
Import PropertiesListing PropertiesClosed.
Arguments Nat.pow : simpl never.
Open Scope nat_scope.

(** ** Alone, the programs do what the operations do *)
Section Alone.
  Variable hash : bytes -> cid.
  Notation run_work := (run_work hash).

  Lemma run_catch {A B} (p : work A) : forall (f : res A -> work B) st,
    run_work st (wcatch p f) = run_work (fst (run_work st p)) (f (snd (run_work st p))).
  Proof.
    induction p as [x|c k IH|n k IH]; intros f st; cbn [wcatch WorkModel.run_work fst snd]; [reflexivity|apply IH|].
    destruct (save hash st n) as [c st']. apply IH.
  Qed.
  Definition does {A} (p : work A) (o : op A) : Prop := forall st, run_work st p = o st.
  Lemma does_ret {A} (x : A) : does (wret x) (oret x).
  Proof. intros st. reflexivity. Qed.
  Lemma does_lift {A} (x : res A) : does (wlift x) (olift x).
  Proof. intros st. reflexivity. Qed.
  Lemma does_load c : does (wload c) (oload c).
  Proof. intros st. reflexivity. Qed.
  Lemma does_save n : does (wsave n) (osave hash n).
  Proof. intros st. unfold wsave, osave. cbn [WorkModel.run_work]. destruct (save hash st n). reflexivity. Qed.
  Lemma does_bind {A B} (p : work A) (f : A -> work B) o g : does p o -> (forall x, does (f x) (g x)) -> does (wbind p f) (obind o g).
  Proof.
    intros Hp Hf st. unfold wbind, obind. rewrite run_catch, Hp. destruct (o st) as [st1 [x| | |]]; cbn [fst snd]; try reflexivity. apply Hf.
  Qed.
  Lemma does_if {A} (b : bool) (p q : work A) o o' : does p o -> does q o' -> does (if b then p else q) (if b then o else o').
  Proof. destruct b; auto. Qed.
  Lemma does_fold {S X} (f : S -> X -> work S) g : (forall s x, does (f s x) (g s x)) -> forall l s, does (wfold f s l) (ofold g s l).
  Proof. intros H. induction l as [|x l IH]; intros s; cbn [wfold ofold]; [apply does_ret|]. apply does_bind; [apply H|exact IH]. Qed.
  Lemma does_ask {A} (p : ask A) st : run_work st (wask p) = (st, ask_store st p).
  Proof. induction p as [x|c k IH]; cbn [wask WorkModel.run_work ask_store]; [reflexivity|apply IH]. Qed.

  Ltac does_auto := repeat first
    [ apply does_ret | apply does_lift | apply does_load | apply does_save
    | apply does_bind; [|intros ?] | apply does_if ].

  (** Building. *)
  Lemma does_tile {A} (E : elem A) k lc rec rec' sub g instants rows cols bits cs ts rc : (forall g h w b, does (rec g h w b) (rec' g h w b)) ->
    does (tile_work E k lc rec sub g instants rows cols bits cs ts rc) (tile_op E k lc rec' sub g instants rows cols bits cs ts rc).
  Proof. intros H. unfold tile_work, tile_op. does_auto. apply H. Qed.
  Lemma run_tiles tiles : forall s st u, run_work st (wfold save_tile_work (mkSave u (ss_links s) (ss_refs s) (ss_sizes s) (ss_elided s) (ss_snapshots s) (ss_logs s)) tiles) =
    let s' := fold_left (save_tile hash) tiles (mkSave st (ss_links s) (ss_refs s) (ss_sizes s) (ss_elided s) (ss_snapshots s) (ss_logs s)) in
    (ss_store s', Ok (mkSave u (ss_links s') (ss_refs s') (ss_sizes s') (ss_elided s') (ss_snapshots s') (ss_logs s'))).
  Proof.
    induction tiles as [|x tiles IH]; intros s st u; cbn [wfold fold_left]; [reflexivity|].
    cbv zeta in *. unfold wbind. rewrite run_catch.
    set (s1 := save_tile hash (mkSave st (ss_links s) (ss_refs s) (ss_sizes s) (ss_elided s) (ss_snapshots s) (ss_logs s)) x).
    assert (H : run_work st (save_tile_work (mkSave u (ss_links s) (ss_refs s) (ss_sizes s) (ss_elided s) (ss_snapshots s) (ss_logs s)) x) =
      (ss_store s1, Ok (mkSave u (ss_links s1) (ss_refs s1) (ss_sizes s1) (ss_elided s1) (ss_snapshots s1) (ss_logs s1)))).
    { unfold s1, save_tile_work, save_tile. destruct (snd x) as [b|]; cbn [ss_store ss_links ss_refs ss_sizes ss_elided ss_snapshots ss_logs]; [|reflexivity].
      unfold wbind, wsave. cbn [wcatch WorkModel.run_work]. destruct (save hash st (NMM (mb_data b))) as [c st'].
      destruct (link_index c (ss_links s)) as [i|]; reflexivity. }
    rewrite H. cbn [fst snd]. rewrite IH. destruct s1. reflexivity.
  Qed.
  Lemma does_finish {A} (E : elem A) level instants rows cols sidelen bits cs ss ts mx mn :
    does (finish_work E level instants rows cols sidelen bits cs ss ts mx mn) (finish_op hash E level instants rows cols sidelen bits cs ss ts mx mn).
  Proof.
    intros st. unfold finish_work, finish_op. unfold wbind at 1. rewrite run_catch.
    pose proof (run_tiles ts (mkSave [] [] [] 0 0 0 0) st []) as H. cbn [ss_links ss_refs ss_sizes ss_elided ss_snapshots ss_logs] in H. rewrite H. cbv zeta. cbn [fst snd].
    set (s := fold_left (save_tile hash) ts (mkSave st [] [] 0 0 0 0)). cbn [ss_links ss_refs ss_sizes ss_elided ss_snapshots ss_logs].
    unfold wbind at 1, wsave. cbn [wcatch WorkModel.run_work]. destruct (save hash (ss_store s) (NLinks (ss_links s))) as [ext st']. 
    match goal with |- run_work st' ?p = ?o st' => assert (D : does p o); [|apply D] end. does_auto.
  Qed.
  Lemma does_super {A} (E : elem A) k lc : forall levels g instants rows cols bits,
    does (super_work E k lc levels g instants rows cols bits) (super_op hash E k lc levels g instants rows cols bits).
  Proof.
    induction levels as [|level sub IH]; intros g instants rows cols bits; cbn [super_work super_op]; does_auto.
    - apply does_fold. intros ts rc. apply does_tile. intros; apply IH.
    - apply does_finish.
  Qed.

  (** Spans and variables. *)
  Lemma does_span_append s m : does (span_append_work s m) (span_append hash s m).
  Proof. unfold span_append_work, span_append. does_auto. destruct x0 as [[n r] c]. does_auto. Qed.
  Lemma does_span_update s m : does (span_update_work s m) (span_update hash s m).
  Proof. apply does_span_append. Qed.
  Lemma does_tail_loop cs : forall fuel m anc, does (tail_loop_work fuel cs m anc) (tail_loop fuel cs m anc).
  Proof. induction fuel as [|fuel IH]; intros m anc; cbn [tail_loop_work tail_loop]; does_auto. apply IH. Qed.
  Lemma does_tail_spans cs c : does (tail_spans_work cs c) (tail_spans cs c).
  Proof. unfold tail_spans_work, tail_spans. apply does_bind; [apply does_load|]. intros m. apply does_bind; [apply does_lift|]. intros s. apply does_tail_loop. Qed.
  Lemma does_update_up : forall spans m, does (update_up_work m spans) (update_up hash m spans).
  Proof.
    induction spans as [|p rest IH]; intros m; cbn [update_up_work update_up]; [apply does_ret|]. apply does_bind; [apply does_lift|]. intros s.
    apply does_bind; [apply does_span_update|]. intros s'. apply IH.
  Qed.
  Lemma does_save_spans spans : does (save_spans_work spans) (save_spans hash spans).
  Proof. destruct spans as [|m rest]; [apply does_lift|]. apply does_bind; [apply does_update_up|]. intros root. apply does_save. Qed.
  Lemma does_open_loop ss rows cols enc : forall spans s l, does (open_loop_work ss rows cols enc s l spans) (open_loop hash ss rows cols enc s l spans).
  Proof.
    induction spans as [|p rest IH]; intros s l; cbn [open_loop_work open_loop].
    - apply does_bind; [apply does_span_append|]. intros r. apply does_bind; [apply does_span_append|]. intros r'. apply does_ret.
    - apply does_bind; [apply does_lift|]. intros q. apply does_if; (apply does_bind; [apply does_span_append|]; intros s'); [apply IH|apply does_ret].
  Qed.
  Lemma does_create_open_span ss cs rows cols enc c : does (create_open_span_work ss cs rows cols enc c) (create_open_span hash ss cs rows cols enc c).
  Proof.
    unfold create_open_span_work, create_open_span. apply does_bind; [apply does_tail_spans|]. intros [|l rest]; [apply does_lift|].
    apply does_bind; [apply does_open_loop|]. intros [s anc]. apply does_bind; [apply does_update_up|]. intros m. apply does_save.
  Qed.
  Lemma does_tail_data cs c : does (tail_data_work cs c) (tail_data cs c).
  Proof. unfold tail_data_work, tail_data. apply does_bind; [apply does_tail_spans|]. intros [|t rest]; does_auto. Qed.
  Lemma does_append_step build build' v instants rows cols x start : (forall a b, does (build a b) (build' a b)) ->
    does (append_step_work build v instants rows cols x start) (append_step hash build' v instants rows cols x start).
  Proof.
    intros H. destruct x as [[root spans] upd]. unfold append_step_work, append_step. apply does_bind; [apply H|]. intros chunk.
    destruct spans as [|m rest]; [apply does_lift|]. apply does_bind; [apply does_lift|]. intros s. apply does_bind.
    - apply does_if; [|apply does_ret]. apply does_bind; [apply does_save_spans|]. intros r1. apply does_bind; [apply does_create_open_span|]. intros r2.
      apply does_bind; [apply does_tail_spans|]. intros [|m' rest']; does_auto.
    - intros [[r s'] rest']. apply does_bind; [apply does_if; [apply does_span_update|apply does_span_append]|]. intros s''. apply does_ret.
  Qed.
  Lemma does_var_append build build' v instants rows cols upd : (forall a b, does (build a b) (build' a b)) ->
    does (var_append_work build v instants rows cols upd) (var_append hash build' v instants rows cols upd).
  Proof.
    intros H. unfold var_append_work, var_append. apply does_bind; [apply does_tail_spans|]. intros spans. apply does_bind; [apply does_lift|]. intros starts.
    apply does_bind; [apply does_fold; intros; apply does_append_step, H|]. intros [[r sp] u]. apply does_save_spans.
  Qed.

  (** Datasets. *)
  Lemma does_build {A} lc (D : dtype A) v data a b : does (build_work lc D v data a b) (build_chunk hash lc D v data a b).
  Proof.
    unfold build_work, build_chunk. destruct (a3_shape data) as [[n h] w]. apply does_bind; [apply does_lift|]. intros bits.
    apply does_bind; [apply does_super|]. intros x. apply does_ret.
  Qed.
  Lemma does_read_tail {A} (D : dtype A) order fuel m : does (read_tail_work order fuel D m) (read_tail D order fuel m).
  Proof.
    intros st. unfold read_tail_work, read_tail. unfold wbind at 1, wlift at 1. cbn [wcatch]. destruct (mm_shape m) as [[[n h] w]| | |]; try reflexivity. cbn [bind].
    unfold wbind. rewrite run_catch, does_ask. cbn [fst snd]. rewrite store_window_ok. destruct (mm_fill_window _ _ _ _ _) as [l| | |]; reflexivity.
  Qed.
  Lemma does_append {A} lc (D : dtype A) order fuel d name data : does (append_work lc order fuel D d name data) (dataset_append hash lc D order fuel d name data).
  Proof.
    unfold append_work, dataset_append. destruct (find_var name (ds_vars d)) as [v|]; [|apply does_lift].
    apply does_bind; [apply does_tail_data|]. intros tail. apply does_bind; [|intros c; apply does_ret]. destruct tail as [m|].
    - apply does_bind; [apply does_read_tail|]. intros a. apply does_bind; [apply does_lift|]. intros a'. destruct (a3_shape a') as [[n h] w].
      apply does_var_append. intros; apply does_build.
    - destruct (a3_shape data) as [[n h] w]. apply does_var_append. intros; apply does_build.
  Qed.
  Lemma does_event lc lg order fuel d e : does (event_work lc lg order fuel d e) (run_event hash lc lg order fuel d e).
  Proof.
    destruct e as [c|t n a| |]; cbn [event_work run_event].
    - apply does_bind; [apply does_save|]. intros x. apply does_ret.
    - apply does_append.
    - apply does_bind; [apply does_save|]. intros x. apply does_ret.
    - apply does_bind; [apply does_save|]. intros x st. reflexivity.
  Qed.
  Lemma run_work_action lc lg order fuel x a : (forall n, a <> Crash n) ->
    let y := run_action hash lc lg order fuel x a in
    run_work (se_store x) (action_work lc lg order fuel (se_open x) a) = (se_store y, Ok (se_open y)).
  Proof.
    intros HC y. unfold y. destruct a as [co r c|c|i e|n]; cbn [action_work run_action]; [reflexivity| | |exfalso; apply (HC n); reflexivity].
    - rewrite run_catch. unfold wdataset. cbn [WorkModel.run_work fst snd]. fold (get_dataset (se_store x) c). destruct (get_dataset (se_store x) c); reflexivity.
    - destruct (nth_error (se_open x) i) as [d|]; [|reflexivity]. rewrite run_catch, does_event. destruct (run_event _ _ _ _ _ _ _ _) as [st r].
      cbn [fst snd WorkModel.run_work wret se_store se_open]. reflexivity.
  Qed.
  Lemma run_work_session lc lg order fuel : forall l x, (forall n, ~ In (Crash n) l) ->
    let y := run_session hash lc lg order fuel x l in
    run_work (se_store x) (session_work lc lg order fuel (se_open x) l) = (se_store y, Ok (se_open y)).
  Proof.
    induction l as [|a l IH]; intros x HC; [reflexivity|]. unfold session_work, run_session in *. cbn [wfold fold_left].
    unfold wbind. rewrite run_catch, run_work_action by (intros n ->; apply (HC n); left; reflexivity). cbn [fst snd].
    apply IH. intros n Hn. apply (HC n). right. exact Hn.
  Qed.
End Alone.

(** ** Programs ask only for what is there

    [needs w p post]: alone with [w], in which nothing is missing, [p] asks only for objects
    that are there by then, and [post] holds of its result and of what it leaves. *)
Section Needs.
  Variable hash : bytes -> cid.

  Fixpoint needs {A} (w : store) (p : work A) (post : res A -> store -> Prop) : Prop :=
    match p with
    | Finished x => post x w
    | Fetch c k => has w c /\ needs w (k (retrieve w c)) post
    | Put n k => let '(c, w') := save hash w n in laid w' -> needs w' (k c) post
    end.
  Definition good_end {A} (post : A -> store -> Prop) (r : res A) (w : store) : Prop := forall a, r = Ok a -> post a w.
  Notation needs_ok w p post := (needs w p (good_end post)).

  Lemma save_incl w n : incl w (snd (save hash w n)).
  Proof. unfold save. cbn [snd]. apply incl_appl, incl_refl. Qed.
  Lemma needs_catch {A B} (p : work A) (f : res A -> work B) mid post : forall w, laid w -> needs w p mid ->
    (forall r w1, incl w w1 -> laid w1 -> mid r w1 -> needs w1 (f r) post) -> needs w (wcatch p f) post.
  Proof.
    induction p as [x|c k IH|n k IH]; intros w HL Hp Hf; cbn [wcatch needs] in *.
    - apply Hf; [apply incl_refl|exact HL|exact Hp].
    - destruct Hp as [Hc Hp]. split; [exact Hc|]. apply IH; assumption.
    - pose proof (save_incl w n) as HI. destruct (save hash w n) as [c w']. cbn [snd] in HI. intros HL'. apply IH; [exact HL'|apply Hp, HL'|].
      intros r w1 HI1. apply Hf. eapply incl_tran; eassumption.
  Qed.
  Lemma needs_mono {A} (p : work A) (post post' : res A -> store -> Prop) : (forall r w, post r w -> post' r w) -> forall w, needs w p post -> needs w p post'.
  Proof.
    intros H. induction p as [x|c k IH|n k IH]; intros w Hp; cbn [needs] in *; [apply H, Hp|destruct Hp as [Hc Hp]; split; [exact Hc|apply IH, Hp]|].
    destruct (save hash w n) as [c w']. intros HL. apply IH, Hp, HL.
  Qed.
  Lemma needs_bind {A B} (p : work A) (f : A -> work B) mid post w : laid w -> needs_ok w p mid ->
    (forall x w1, incl w w1 -> laid w1 -> mid x w1 -> needs_ok w1 (f x) post) -> needs_ok w (wbind p f) post.
  Proof.
    intros HL Hp Hf. unfold wbind. eapply needs_catch; [exact HL|exact Hp|]. intros r w1 HI L1 HM.
    destruct r as [x|e| |]; [apply Hf; [exact HI|exact L1|apply HM; reflexivity]|..]; cbn [needs]; intros a E; discriminate.
  Qed.
  Lemma needs_lift_bind {A B} (r : res A) (f : A -> work B) w post : (forall x, r = Ok x -> needs_ok w (f x) post) -> needs_ok w (wbind (wlift r) f) post.
  Proof. intros H. unfold wbind, wlift. cbn [wcatch]. destruct r as [x|e| |]; [apply H; reflexivity|..]; cbn [needs]; intros a E; discriminate. Qed.
  Lemma needs_ret {A} (x : A) w (post : A -> store -> Prop) : post x w -> needs_ok w (wret x) post.
  Proof. intros H a E. injection E as <-. exact H. Qed.
  Lemma needs_lift {A} (r : res A) w (post : A -> store -> Prop) : (forall x, r = Ok x -> post x w) -> needs_ok w (wlift r) post.
  Proof. intros H a E. apply H, E. Qed.
  Lemma needs_load c w : laid w -> has w c -> needs_ok w (wload c) (fun m w' => get_mm w' c = Ok m /\ backed w' m).
  Proof.
    intros HL Hc. split; [exact Hc|]. intros m E. fold (get_mm w c) in E. split; [exact E|].
    unfold get_mm in E. apply bind_inv in E. destruct E as (n & R & E). pose proof (laid_retrieve w c n HL R) as H.
    destruct n as [m'| |]; try discriminate. injection E as <-. exact H.
  Qed.
  Lemma needs_save n w : needs_ok w (wsave n) (fun c w' => has w' c).
  Proof.
    unfold wsave. cbn [needs]. destruct (save hash w n) as [c w'] eqn:E. intros _ a Ea. injection Ea as <-. unfold save in E. injection E as <- <-.
    eexists. apply in_or_app. right. left. reflexivity.
  Qed.
  Lemma needs_fold {S X} (f : S -> X -> work S) (P : S -> store -> Prop) :
    (forall s x w, laid w -> P s w -> needs_ok w (f s x) P) -> forall l s w, laid w -> P s w -> needs_ok w (wfold f s l) P.
  Proof.
    intros H. induction l as [|x l IH]; intros s w HL HP; cbn [wfold]; [apply needs_ret; exact HP|].
    eapply needs_bind; [exact HL|apply H; assumption|]. intros s' w1 _ L1 P1. apply IH; assumption.
  Qed.

  (** Programs that only save. *)
  Fixpoint only_saves {A} (p : work A) : Prop :=
    match p with Finished _ => True | Fetch _ _ => False | Put n k => forall c, only_saves (k c) end.
  Lemma saves_catch {A B} (p : work A) (f : res A -> work B) : only_saves p -> (forall r, only_saves (f r)) -> only_saves (wcatch p f).
  Proof. intros Hp Hf. induction p as [x|c k IH|n k IH]; cbn [wcatch only_saves] in *; [apply Hf|exact Hp|intros c; apply IH, Hp]. Qed.
  Lemma saves_bind {A B} (p : work A) (f : A -> work B) : only_saves p -> (forall x, only_saves (f x)) -> only_saves (wbind p f).
  Proof. intros Hp Hf. apply saves_catch; [exact Hp|]. intros [x|e| |]; [apply Hf|exact I..]. Qed.
  Lemma saves_fold {S X} (f : S -> X -> work S) : (forall s x, only_saves (f s x)) -> forall l s, only_saves (wfold f s l).
  Proof. intros H. induction l as [|x l IH]; intros s; cbn [wfold]; [exact I|]. apply saves_bind; [apply H|exact IH]. Qed.
  Lemma saves_needs {A} (p : work A) : only_saves p -> forall w, needs_ok w p (fun _ _ => True).
  Proof.
    induction p as [x|c k IH|n k IH]; intros Hp w; cbn [needs only_saves] in *; [intros a _; exact I|destruct Hp|].
    destruct (save hash w n) as [c w']. intros _. apply IH, Hp.
  Qed.
  Lemma saves_if {A} (b : bool) (p q : work A) : only_saves p -> only_saves q -> only_saves (if b then p else q).
  Proof. destruct b; auto. Qed.
  Lemma saves_one n : only_saves (wsave n).
  Proof. intros c. exact I. Qed.

  Ltac saves_auto := repeat first [ exact I | apply saves_one | apply saves_bind; [|intros ?] | apply saves_if ].
  Lemma saves_tile {A} (E : elem A) k lc rec sub g instants rows cols bits cs ts rc : (forall g h w b, only_saves (rec g h w b)) ->
    only_saves (tile_work E k lc rec sub g instants rows cols bits cs ts rc).
  Proof. intros H. unfold tile_work. saves_auto. apply H. Qed.
  Lemma saves_finish {A} (E : elem A) level instants rows cols sidelen bits cs ss ts mx mn : only_saves (finish_work E level instants rows cols sidelen bits cs ss ts mx mn).
  Proof.
    unfold finish_work. apply saves_bind; [|intros s; saves_auto]. apply saves_fold. intros s x. unfold save_tile_work. destruct (snd x) as [b|]; [|exact I].
    apply saves_bind; [apply saves_one|]. intros c. destruct (link_index c (ss_links s)); exact I.
  Qed.
  Lemma saves_super {A} (E : elem A) k lc : forall levels g instants rows cols bits, only_saves (super_work E k lc levels g instants rows cols bits).
  Proof.
    induction levels as [|level sub IH]; intros g instants rows cols bits; cbn [super_work]; (apply saves_if; [exact I|]); [exact I|].
    apply saves_bind; [exact I|]. intros cs. apply saves_bind; [apply saves_fold; intros ts rc; apply saves_tile; intros; apply IH|]. intros ts.
    apply saves_bind; [exact I|]. intros mx. apply saves_bind; [exact I|]. intros mn. apply saves_finish.
  Qed.
  Lemma saves_build {A} lc (D : dtype A) v data a b : only_saves (build_work lc D v data a b).
  Proof.
    unfold build_work. destruct (a3_shape data) as [[n h] w]. apply saves_bind; [exact I|]. intros bits. apply saves_bind; [apply saves_super|]. intros x. exact I.
  Qed.

  (** Spans and variables. *)
  Lemma needs_span_append s m w : laid w -> backed w (MSpan s) -> needs_ok w (span_append_work s m) (fun s' w' => backed w' (MSpan s')).
  Proof.
    intros HL HB. unfold span_append_work. eapply (needs_bind _ _ (fun _ _ => True)); [exact HL| |].
    - destruct (0 <? _); [|apply needs_ret; exact I]. apply needs_lift_bind. intros c Ec.
      eapply needs_bind; [exact HL|apply needs_load; [exact HL|apply HB; apply (span_last_in s c Ec)]|].
      intros last w1 _ _ _. apply needs_lift_bind. intros n _. destruct (_ =? _); [apply needs_ret; exact I|apply needs_lift; discriminate].
    - intros _ w1 HI L1 _. apply needs_lift_bind. intros [[n r] c] _. destruct (_ || _); [apply needs_lift; discriminate|].
      destruct (_ <? _); [apply needs_lift; discriminate|]. eapply needs_bind; [exact L1|apply needs_save|].
      intros x w2 HI2 _ Hx. apply needs_ret. intros y Hy. cbn [mm_refs sp_spans] in Hy. apply in_app_or in Hy. destruct Hy as [Hy|[<-|[]]]; [|exact Hx].
      eapply has_incl; [|apply HB; exact Hy]. eapply incl_tran; eassumption.
  Qed.
  Lemma needs_span_update s m w : laid w -> backed w (MSpan s) -> needs_ok w (span_update_work s m) (fun s' w' => backed w' (MSpan s')).
  Proof. intros HL HB. apply needs_span_append; [exact HL|]. intros x Hx. apply HB. apply in_removelast, Hx. Qed.
  Lemma needs_tail_loop cs : forall fuel m anc w, laid w -> backed w m -> Forall (backed w) anc -> needs_ok w (tail_loop_work fuel cs m anc) (fun l w' => Forall (backed w') l).
  Proof.
    induction fuel as [|fuel IH]; intros m anc w HL HB HA; cbn [tail_loop_work]; [apply needs_lift; discriminate|].
    apply needs_lift_bind. intros s Es. apply as_span_inv in Es. subst m. destruct (_ <? _); [|apply needs_ret; constructor; assumption].
    apply needs_lift_bind. intros c Ec. eapply needs_bind; [exact HL|apply needs_load; [exact HL|apply HB, (span_last_in s c Ec)]|].
    intros m' w1 HI L1 [_ HB1]. apply IH; [exact L1|exact HB1|]. constructor; [eapply backed_incl; eassumption|eapply all_backed_incl; eassumption].
  Qed.
  Lemma needs_tail_spans cs root w : laid w -> has w root -> needs_ok w (tail_spans_work cs root) (fun l w' => Forall (backed w') l).
  Proof.
    intros HL HR. unfold tail_spans_work. eapply needs_bind; [exact HL|apply needs_load; assumption|].
    intros m w1 _ L1 [_ HB]. apply needs_lift_bind. intros s _. apply needs_tail_loop; [exact L1|exact HB|constructor].
  Qed.
  Lemma needs_update_up : forall spans m w, laid w -> backed w m -> Forall (backed w) spans -> needs_ok w (update_up_work m spans) (fun m' w' => backed w' m').
  Proof.
    induction spans as [|p rest IH]; intros m w HL HB HS; cbn [update_up_work]; [apply needs_ret; exact HB|]. inversion HS as [|? ? Hp Hrest]; subst.
    apply needs_lift_bind. intros s Es. apply as_span_inv in Es. subst p.
    eapply needs_bind; [exact HL|apply needs_span_update; assumption|].
    intros s' w1 HI L1 HB'. apply IH; [exact L1|exact HB'|eapply all_backed_incl; eassumption].
  Qed.
  Lemma needs_save_spans spans w : laid w -> Forall (backed w) spans -> needs_ok w (save_spans_work spans) (fun c w' => has w' c).
  Proof.
    intros HL HS. unfold save_spans_work. destruct spans as [|m rest]; [apply needs_lift; discriminate|]. inversion HS as [|? ? Hm Hrest]; subst.
    eapply needs_bind; [exact HL|apply needs_update_up; assumption|]. intros. apply needs_save.
  Qed.
  Lemma needs_open_loop ss rows cols enc : forall spans s l w, laid w -> backed w (MSpan s) -> Forall (backed w) spans ->
    needs_ok w (open_loop_work ss rows cols enc s l spans) (fun x w' => backed w' (MSpan (fst x)) /\ Forall (backed w') (snd x)).
  Proof.
    induction spans as [|p rest IH]; intros s l w HL HB HS; cbn [open_loop_work].
    - eapply needs_bind; [exact HL|apply needs_span_append; [exact HL|apply backed_new]|].
      intros r w1 HI L1 Hr. eapply needs_bind; [exact L1|apply needs_span_append; assumption|].
      intros r' w2 _ _ Hr'. apply needs_ret. split; [exact Hr'|constructor].
    - inversion HS as [|? ? Hp Hrest]; subst. apply needs_lift_bind. intros s0 Es. apply as_span_inv in Es. subst p. destruct (_ =? _).
      + eapply needs_bind; [exact HL|apply needs_span_append; [exact HL|apply backed_new]|].
        intros s' w1 HI L1 Hs'. apply IH; [exact L1|exact Hs'|eapply all_backed_incl; eassumption].
      + eapply needs_bind; [exact HL|apply needs_span_append; assumption|].
        intros s' w1 HI L1 Hs'. apply needs_ret. split; [exact Hs'|eapply all_backed_incl; eassumption].
  Qed.
  Lemma needs_create_open_span ss cs rows cols enc root w : laid w -> has w root -> needs_ok w (create_open_span_work ss cs rows cols enc root) (fun c w' => has w' c).
  Proof.
    intros HL HR. unfold create_open_span_work. eapply needs_bind; [exact HL|apply needs_tail_spans; assumption|].
    intros [|l rest] w1 _ L1 HS; [apply needs_lift; discriminate|]. inversion HS as [|? ? Hl Hrest]; subst.
    eapply needs_bind; [exact L1|apply needs_open_loop; [exact L1|apply backed_new|exact Hrest]|].
    intros [s a] w2 _ L2 [H1 H2]. eapply needs_bind; [exact L2|apply needs_update_up; assumption|]. intros. apply needs_save.
  Qed.
  Lemma needs_tail_data cs root w : laid w -> has w root ->
    needs_ok w (tail_data_work cs root) (fun t w' => forall m, t = Some m -> backed w' m).
  Proof.
    intros HL HR. unfold tail_data_work. eapply needs_bind; [exact HL|apply needs_tail_spans; assumption|].
    intros [|l rest] w1 _ L1 HS; [apply needs_lift; discriminate|]. inversion HS as [|? ? Hl Hrest]; subst.
    apply needs_lift_bind. intros s Es. apply as_span_inv in Es. subst l. destruct (_ =? 0); [apply needs_ret; discriminate|].
    apply needs_lift_bind. intros c Ec. eapply needs_bind; [exact L1|apply needs_load; [exact L1|apply Hl, (span_last_in s c Ec)]|].
    intros m w2 _ _ [_ G]. apply needs_lift_bind. intros n _. apply needs_ret. intros m' E. destruct (n <? cs); [|discriminate]. injection E as <-. exact G.
  Qed.

  Section Step.
    Variables (build : nat -> nat -> work mmstruct).
    Hypothesis Hb : forall a b, only_saves (build a b).

    Lemma needs_append_step v instants rows cols root spans upd start w : laid w -> Forall (backed w) spans ->
      needs_ok w (append_step_work build v instants rows cols (root, spans, upd) start) (fun x w' => Forall (backed w') (snd (fst x))).
    Proof.
      intros HL HS. unfold append_step_work. eapply (needs_bind _ _ (fun _ _ => True)); [exact HL|apply saves_needs, Hb|].
      intros chunk w1 HI1 L1 _. destruct spans as [|m rest]; [apply needs_lift; discriminate|]. apply (all_backed_incl _ _ _ HI1) in HS.
      inversion HS as [|? ? Hm Hrest]; subst. apply needs_lift_bind. intros s Es. apply as_span_inv in Es. subst m.
      eapply (needs_bind _ _ (fun y w' => backed w' (MSpan (snd (fst y))) /\ Forall (backed w') (snd y))); [exact L1| |].
      - destruct (_ =? _); [|apply needs_ret; split; assumption].
        eapply needs_bind; [exact L1|apply needs_save_spans; assumption|]. intros r1 w2 _ L2 Hr1.
        eapply needs_bind; [exact L2|apply needs_create_open_span; assumption|]. intros r2 w3 _ L3 Hr2.
        eapply needs_bind; [exact L3|apply needs_tail_spans; assumption|].
        intros [|m' rest'] w4 _ _ H4; [apply needs_lift; discriminate|]. inversion H4 as [|? ? Hm' Hrest']; subst.
        apply needs_lift_bind. intros s' Es. apply as_span_inv in Es. subst m'. destruct (_ =? 0); [|apply needs_lift; discriminate].
        apply needs_ret. split; assumption.
      - intros [[r s'] rest'] w2 _ L2 [H1 H2]. cbn [fst snd] in H1, H2.
        eapply (needs_bind _ _ (fun s'' w' => backed w' (MSpan s''))); [exact L2| |].
        + destruct upd; [apply needs_span_update; assumption|apply needs_span_append; assumption].
        + intros s'' w3 HI3 _ H3. apply needs_ret. cbn [fst snd]. constructor; [exact H3|eapply all_backed_incl; eassumption].
    Qed.
    Lemma needs_var_append v instants rows cols upd w : laid w -> has w (va_cid v) ->
      needs_ok w (var_append_work build v instants rows cols upd) (fun c w' => has w' c).
    Proof.
      intros HL HV. unfold var_append_work. eapply needs_bind; [exact HL|apply needs_tail_spans; assumption|].
      intros spans w1 _ L1 HS. apply needs_lift_bind. intros starts _.
      eapply (needs_bind _ _ (fun (x : cid * list mmstruct * bool) w' => Forall (backed w') (snd (fst x)))); [exact L1| |].
      - apply needs_fold; [|exact L1|exact HS]. intros [[r sp] u] x w2 L2 H2. apply needs_append_step; [exact L2|exact H2].
      - intros [[r sp] u] w2 _ L2 H2. apply needs_save_spans; [exact L2|exact H2].
    Qed.
  End Step.

  (** Reading the tail. *)
  Lemma needs_ask {A} (p : ask A) w : (forall c, In c (asked w p) -> has w c) -> needs_ok w (wask p) (fun _ _ => True).
  Proof.
    induction p as [x|c k IH]; intros H; cbn [wask needs asked] in *; [intros a _; exact I|]. split; [apply H; left; reflexivity|].
    apply IH. intros c' Hc'. apply H. right. exact Hc'.
  Qed.
  Lemma asked_mm_has w c x : laid w -> has w c -> In x (asked w (ask_mm c)) -> has w x.
  Proof. intros _ Hc [<-|[]]. exact Hc. Qed.
  Lemma get_mm_backed w c m : laid w -> get_mm w c = Ok m -> backed w m.
  Proof.
    intros HL E. unfold get_mm in E. apply bind_inv in E. destruct E as (n & R & E). pose proof (laid_retrieve w c n HL R) as H.
    destruct n as [m'| |]; try discriminate. injection E as <-. exact H.
  Qed.
  Lemma nth_res_in {X} (l : list X) i x : nth_res l i = Ok x -> In x l.
  Proof. unfold nth_res. destruct (nth_error l i) as [y|] eqn:E; [|discriminate]. intros H. injection H as <-. eapply nth_error_In, E. Qed.
  Lemma asked_external w s local i x : laid w -> backed w (MSuper s local) -> In x (asked w (ask_external s i)) -> has w x.
  Proof.
    intros HL HB Hx. unfold ask_external in Hx. apply asked_then in Hx. destruct Hx as [[<-|[]]|(links & El & Hx)]; [apply HB; left; reflexivity|].
    apply asked_pure in Hx. destruct Hx as (c & Ec & Hx). destruct Hx as [<-|[]].
    cbn [ask_links ask_store] in El. apply bind_inv in El. destruct El as (n & R & El). destruct n as [|l|]; try discriminate. injection El as ->.
    apply (laid_retrieve w _ _ HL R). cbn [refs]. eapply nth_res_in, Ec.
  Qed.
  Lemma asked_window_has w : laid w -> forall fuel m b bits x, backed w m -> In x (asked w (ask_window fuel m b bits)) -> has w x.
  Proof.
    intros HL. induction fuel as [|fuel IH]; intros m b bits x HB Hx; cbn [ask_window] in Hx; [destruct Hx|]. destruct m as [s|ch|s local].
    - apply asked_pure in Hx. destruct Hx as (n & _ & Hx). apply asked_pure in Hx. destruct Hx as (ps & _ & Hx). apply asked_one in Hx.
      destruct Hx as ([[[sp i] len] off] & _ & Hx). apply asked_pure in Hx. destruct Hx as (c & Ec & Hx). apply nth_res_in in Ec. apply asked_then in Hx.
      destruct Hx as [Hx|(m' & Em & Hx)]; [apply (asked_mm_has w c); auto; apply HB; exact Ec|]. rewrite store_mm in Em.
      apply asked_then in Hx. destruct Hx as [Hx|(l & _ & [])]. apply (IH _ _ _ _ (get_mm_backed w c m' HL Em) Hx).
    - destruct Hx.
    - apply asked_pure in Hx. destruct Hx as (n & _ & Hx). apply asked_pure in Hx. destruct Hx as (ps & _ & Hx). apply asked_one in Hx.
      destruct Hx as (sw & _ & Hx). apply asked_then in Hx. destruct Hx as [Hx|(l & _ & [])]. rewrite asked_asked_map in Hx.
      apply asked_pure in Hx. destruct Hx as (ref & _ & Hx). destruct ref as [|i|i]; [destruct Hx| |].
      + apply asked_pure in Hx. destruct Hx as (m' & Em & Hx). apply nth_res_in in Em. apply IH in Hx; [exact Hx|]. intros y Hy. apply HB. right. apply in_flat_map. eauto.
      + apply asked_then in Hx. destruct Hx as [Hx|(m' & Em & Hx)]; [eapply asked_external; eassumption|]. apply IH in Hx; [exact Hx|].
        rewrite store_external in Em. unfold super_external in Em. apply bind_inv in Em. destruct Em as (ls & _ & Em). apply bind_inv in Em. destruct Em as (c & _ & Em).
        apply (get_mm_backed w c m' HL Em).
  Qed.
  Lemma needs_read_tail {A} (D : dtype A) order fuel w m : laid w -> backed w m -> needs_ok w (read_tail_work order fuel D m) (fun _ _ => True).
  Proof.
    intros HL HB. unfold read_tail_work. apply needs_lift_bind. intros [[n h] k] _. eapply needs_bind; [exact HL|apply needs_ask|intros; apply needs_lift; auto].
    intros c. apply asked_window_has; assumption.
  Qed.

  (** Datasets. *)
  Lemma needs_append {A} lc (D : dtype A) order fuel d name data w : laid w -> filed w d ->
    needs_ok w (append_work lc order fuel D d name data) (fun d' w' => filed w' d').
  Proof.
    intros HL HD. unfold append_work. destruct (find_var name (ds_vars d)) as [v|] eqn:Ev; [|apply needs_lift; discriminate].
    assert (Hv : has w (va_cid v)) by (apply HD; apply find_some in Ev; apply Ev).
    assert (FV : forall a' upd w1, laid w1 -> incl w w1 -> needs_ok w1 (let '(n, rows, cols) := a3_shape a' in var_append_work (build_work lc D v a') v n rows cols upd) (fun c w' => has w' c)).
    { intros a' upd w1 L1 HI. destruct (a3_shape a') as [[n h] k]. apply needs_var_append; [intros; apply saves_build|exact L1|]. eapply has_incl; eassumption. }
    eapply needs_bind; [exact HL|apply needs_tail_data; assumption|].
    intros tail w1 HI1 L1 HT. eapply (needs_bind _ _ (fun c w' => has w' c)); [exact L1| |].
    - destruct tail as [m|]; [|apply FV; assumption].
      eapply needs_bind; [exact L1|apply needs_read_tail; [exact L1|apply HT; reflexivity]|].
      intros a w2 HI2 L2 _. apply needs_lift_bind. intros a' _. apply FV; [exact L2|]. eapply incl_tran; eassumption.
    - intros c w2 HI2 _ Hc. apply needs_ret. intros x Hx. cbn [ds_vars] in Hx. apply in_replace in Hx. destruct Hx as [->|Hx]; [exact Hc|].
      eapply has_incl; [|apply HD, Hx]. eapply incl_tran; eassumption.
  Qed.
  Lemma needs_dataset c w : laid w -> has w c -> needs_ok w (wdataset c) (fun d w' => filed w' d).
  Proof. intros HL Hc. split; [exact Hc|]. intros d E. fold (get_dataset w c) in E. eapply filed_loaded; eassumption. Qed.
  Lemma needs_event lc lg order fuel d e w : laid w -> filed w d -> needs_ok w (event_work lc lg order fuel d e) (fun d' w' => filed w' d').
  Proof.
    intros HL HD. destruct e as [c|t n a| |]; cbn [event_work].
    - unfold add_work. eapply needs_bind; [exact HL|apply needs_save|].
      intros x w1 HI _ Hx. apply needs_ret. intros v Hv. cbn [ds_vars] in Hv. apply in_app_or in Hv. destruct Hv as [Hv|[<-|[]]]; [|exact Hx].
      eapply filed_incl; eassumption.
    - apply needs_append; assumption.
    - eapply needs_bind; [exact HL|apply needs_save|]. intros x w1 HI _ _. apply needs_ret. eapply filed_incl; eassumption.
    - eapply needs_bind; [exact HL|apply needs_save|]. intros c w1 _ L1 Hc. apply needs_dataset; assumption.
  Qed.
End Needs.

Section Shared.
  Variable hash : bytes -> cid.
  Notation run_work := (run_work hash).
  Notation needs := (needs hash).

  Lemma run_grows {A} (p : work A) : forall w, exists u, fst (run_work w p) = w ++ u.
  Proof.
    induction p as [x|c k IH|n k IH]; intros w; cbn [WorkModel.run_work fst]; [exists []; symmetry; apply app_nil_r|apply IH|].
    unfold save. destruct (IH (hash (node_bytes n)) (w ++ [(hash (node_bytes n), node_bytes n)])) as (u & E). rewrite E. rewrite <- app_assoc. eexists. reflexivity.
  Qed.
  Lemma run_incl {A} (p : work A) w : incl w (fst (run_work w p)).
  Proof. destruct (run_grows p w) as (u & ->). apply incl_appl, incl_refl. Qed.
  Lemma run_laid_before {A} (p : work A) w : laid (fst (run_work w p)) -> laid w.
  Proof. destruct (run_grows p w) as (u & ->). apply laid_before. Qed.
  Lemma needs_result {A} (p : work A) mid : forall w, laid (fst (run_work w p)) -> needs w p mid -> mid (snd (run_work w p)) (fst (run_work w p)).
  Proof.
    induction p as [x|c k IH|n k IH]; intros w HL H; cbn [WorkModel.run_work WorkProofs.needs fst snd] in *; [exact H|apply IH; [exact HL|apply H]|].
    destruct (save hash w n) as [c w']. apply IH; [exact HL|]. apply H. eapply run_laid_before, HL.
  Qed.
  Lemma needs_then {A B} (p : work A) (f : res A -> work B) mid post : forall w, needs w p mid -> laid (fst (run_work w p)) ->
    (mid (snd (run_work w p)) (fst (run_work w p)) -> needs (fst (run_work w p)) (f (snd (run_work w p))) post) -> needs w (wcatch p f) post.
  Proof.
    induction p as [x|c k IH|n k IH]; intros w Hp HL Hf; cbn [wcatch WorkProofs.needs WorkModel.run_work fst snd] in *; [apply Hf, Hp| |].
    - destruct Hp as [Hc Hp]. split; [exact Hc|]. apply IH; assumption.
    - destruct (save hash w n) as [c w']. intros HL'. apply IH; [apply Hp, HL'|exact HL|exact Hf].
  Qed.

  (** Programs open only what is there. *)
  Fixpoint opens_there lc lg order fuel (x : session) (l : list action) : Prop :=
    match l with
    | [] => True
    | a :: l' => match a with Open c => has (se_store x) c | _ => True end /\ opens_there lc lg order fuel (run_action hash lc lg order fuel x a) l'
    end.

  Lemma needs_action lc lg order fuel x a : laid (se_store x) -> Forall (filed (se_store x)) (se_open x) ->
    match a with Open c => has (se_store x) c | _ => True end ->
    needs (se_store x) (action_work lc lg order fuel (se_open x) a) (fun r w' => exists open, r = Ok open /\ Forall (filed w') open).
  Proof.
    intros HL HD HO. destruct a as [co r c|c|i e|n]; cbn [action_work].
    - exists (se_open x ++ [dataset_new co r c]). split; [reflexivity|]. apply Forall_app. split; [exact HD|]. constructor; [|constructor]. intros v [].
    - eapply needs_catch; [exact HL|apply needs_dataset; assumption|]. intros [d|e| |] w1 HI L1 HM; cbn [WorkProofs.needs wret]; eexists; (split; [reflexivity|]).
      1: apply Forall_app; split; [|constructor; [apply HM; reflexivity|constructor]].
      all: eapply Forall_impl; [|exact HD]; intros d'; apply filed_incl, HI.
    - destruct (nth_error (se_open x) i) as [d|] eqn:Ed; [|eexists; split; [reflexivity|exact HD]].
      assert (Hd : filed (se_store x) d) by (apply nth_error_In in Ed; rewrite Forall_forall in HD; apply HD, Ed).
      eapply needs_catch; [exact HL|apply needs_event; assumption|]. intros [d'|e'| |] w1 HI L1 HM; cbn [WorkProofs.needs wret]; eexists; (split; [reflexivity|]).
      1: apply Forall_app; split; [|constructor; [apply HM; reflexivity|constructor]].
      all: eapply Forall_impl; [|exact HD]; intros d0; apply filed_incl, HI.
    - eexists. split; [reflexivity|exact HD].
  Qed.
  Lemma needs_session lc lg order fuel : forall l x, (forall n, ~ In (Crash n) l) -> laid (se_store (run_session hash lc lg order fuel x l)) ->
    Forall (filed (se_store x)) (se_open x) -> opens_there lc lg order fuel x l ->
    needs (se_store x) (session_work lc lg order fuel (se_open x) l) (fun _ _ => True).
  Proof.
    induction l as [|a l IH]; intros x HC HL HD HO; [exact I|]. destruct HO as [Ho HO].
    assert (Ca : forall n, a <> Crash n) by (intros n ->; apply (HC n); left; reflexivity).
    assert (Cl : forall n, ~ In (Crash n) l) by (intros n Hn; apply (HC n); right; exact Hn).
    unfold run_session, session_work in *. cbn [fold_left wfold] in *.
    pose proof (run_work_session hash lc lg order fuel l (run_action hash lc lg order fuel x a) Cl) as R1. cbv zeta in R1. unfold run_session, session_work in R1.
    assert (L1 : laid (se_store (run_action hash lc lg order fuel x a))) by (eapply run_laid_before; rewrite R1; exact HL).
    pose proof (run_work_action hash lc lg order fuel x a Ca) as R0. cbv zeta in R0.
    assert (L0 : laid (se_store x)) by (eapply run_laid_before; rewrite R0; exact L1).
    unfold wbind. eapply needs_then; [apply (needs_action lc lg order fuel x a L0 HD Ho)|rewrite R0; exact L1|].
    rewrite R0. cbn [fst snd]. intros (open & E & HD1). injection E as <-. apply IH; assumption.
  Qed.

  (** ** The programs together *)

  (** An object whose parts are in a smaller store can be added to a larger one. *)
  Lemma laid_snoc st w p : laid st -> laid (w ++ [p]) -> incl w st -> laid (st ++ [p]).
  Proof.
    intros HL HW HI i q Hi. destruct (Nat.lt_ge_cases i (length st)) as [L|L].
    - rewrite nth_error_app1 in Hi by exact L. destruct (HL i q Hi) as (n0 & E & HN). exists n0. split; [exact E|].
      rewrite firstn_app. replace (i - length st) with 0 by lia. rewrite app_nil_r. exact HN.
    - rewrite nth_error_app2 in Hi by exact L. destruct (i - length st) as [|j] eqn:Ej; [|destruct j; discriminate]. cbn [nth_error] in Hi. injection Hi as <-.
      destruct (HW (length w) p) as (n0 & E & HN); [rewrite nth_error_app2, Nat.sub_diag by apply le_n; reflexivity|]. exists n0. split; [exact E|].
      rewrite firstn_app, firstn_all, Nat.sub_diag in HN. cbn [firstn] in HN. rewrite app_nil_r in HN.
      rewrite firstn_app, firstn_all2 by lia. rewrite Ej. cbn [firstn]. rewrite app_nil_r. eapply anchored_incl; eassumption.
  Qed.
  Lemma retrieve_there st w c : functional st -> incl w st -> has w c -> retrieve st c = retrieve w c.
  Proof.
    intros HF HI Hc. unfold retrieve. destruct (has_got w c Hc) as (b & Eb). rewrite Eb. rewrite (store_get_in st c b HF); [reflexivity|]. apply HI, store_get_some, Eb.
  Qed.

  (** How many steps a program takes alone. *)
  Fixpoint steps {A} (w : store) (p : work A) : nat :=
    match p with
    | Finished _ => 0
    | Fetch c k => S (steps w (k (retrieve w c)))
    | Put n k => let '(c, w') := save hash w n in S (steps w' (k c))
    end.

  (** A program that has begun as [p0] in [st0] and has [p] left to do, when [st] is in the
      store: there is a store [w] that it would have, alone. *)
  Definition same_end {A} (st0 st : store) (p0 p : work A) (done : nat) : Prop := exists w,
    run_work w p = run_work st0 p0 /\ needs w p (fun _ _ => True) /\ incl w st /\ steps w p = steps st0 p0 - done.

  Lemma same_end_grows {A} st0 st st' (p0 p : work A) done : incl st st' -> same_end st0 st p0 p done -> same_end st0 st' p0 p done.
  Proof. intros HI (w & H1 & H2 & H3 & H4). exists w. split; [exact H1|split; [exact H2|split; [eapply incl_tran; eassumption|exact H4]]]. Qed.
  Lemma same_end_step {A} st0 st all (p0 p : work A) done : functional all -> incl st all -> incl (fst (run_work st0 p0)) all ->
    laid st -> laid (fst (run_work st0 p0)) -> same_end st0 st p0 p done ->
    let '(st', p') := work_step hash st p in same_end st0 st' p0 p' (S done) /\ laid st' /\ incl st' all /\ exists u, st' = st ++ u.
  Proof.
    intros HF HA HR HL HL0 (w & H1 & H2 & H3 & H4). assert (Fst : functional st) by (eapply functional_incl; eassumption).
    destruct p as [x|c k|n k]; cbn [work_step WorkModel.run_work WorkProofs.needs steps] in *.
    - split; [|split; [exact HL|split; [exact HA|exists []; symmetry; apply app_nil_r]]]. exists w. cbn [WorkModel.run_work WorkProofs.needs steps]. repeat split; auto. lia.
    - destruct H2 as [Hc H2]. split; [|split; [exact HL|split; [exact HA|exists []; symmetry; apply app_nil_r]]].
      exists w. rewrite (retrieve_there st w c Fst H3 Hc). split; [exact H1|]. split; [exact H2|]. split; [exact H3|lia].
    - unfold save in *. set (o := (hash (node_bytes n), node_bytes n)) in *.
      assert (LW : laid (w ++ [o])) by (eapply run_laid_before; rewrite H1; exact HL0).
      split; [|split; [eapply laid_snoc; eassumption|split; [|exists [o]; reflexivity]]].
      + exists (w ++ [o]). split; [exact H1|]. split; [apply H2, LW|]. split; [|lia].
        intros q Hq. apply in_app_or in Hq. apply in_or_app. destruct Hq as [Hq|Hq]; [left; apply H3, Hq|right; exact Hq].
      + intros q Hq. apply in_app_or in Hq. destruct Hq as [Hq|[<-|[]]]; [apply HA, Hq|]. apply HR. rewrite <- H1. apply run_incl. apply in_or_app. right. left. reflexivity.
  Qed.

  Definition turns_of (i : nat) (schedule : list nat) : nat := count_occ Nat.eq_dec schedule i.

  Section Together.
    Context {A : Type}.
    Variables (st0 all : store) (ps : list (work A)).
    Hypothesis HF : functional all.
    Hypothesis H0 : incl st0 all.
    Hypothesis L0 : laid st0.
    Hypothesis HR : forall p, In p ps -> incl (fst (run_work st0 p)) all.
    Hypothesis HL : forall p, In p ps -> laid (fst (run_work st0 p)).
    Hypothesis HN : forall p, In p ps -> needs st0 p (fun _ _ => True).

    Definition together (schedule : list nat) (s : shared A) : Prop :=
      length (sh_work s) = length ps /\ laid (sh_store s) /\ incl (sh_store s) all /\ (exists u, sh_store s = st0 ++ u) /\
      forall i p0 p, nth_error ps i = Some p0 -> nth_error (sh_work s) i = Some p -> same_end st0 (sh_store s) p0 p (turns_of i schedule).

    Lemma nth_put {X} (l : list X) i x j : i < length l -> nth_error (firstn i l ++ x :: skipn (S i) l) j = if Nat.eq_dec i j then Some x else nth_error l j.
    Proof.
      intros Hi. assert (Lf : length (firstn i l) = i) by (rewrite firstn_length; lia). destruct (Nat.eq_dec i j) as [<-|N].
      - rewrite nth_error_app2 by lia. rewrite Lf, Nat.sub_diag. reflexivity.
      - destruct (Nat.lt_ge_cases j i) as [L|L].
        + rewrite nth_error_app1 by lia. rewrite <- (firstn_skipn i l) at 2. rewrite nth_error_app1 by lia. reflexivity.
        + rewrite nth_error_app2 by lia. rewrite Lf. destruct (j - i) as [|k] eqn:Ek; [lia|]. cbn [nth_error].
          rewrite <- (firstn_skipn (S i) l) at 2. rewrite nth_error_app2 by (rewrite firstn_length; lia). f_equal. rewrite firstn_length. lia.
    Qed.
    Lemma together_start : together [] (mkShared st0 ps).
    Proof.
      unfold together. cbn [sh_store sh_work]. split; [reflexivity|]. split; [exact L0|]. split; [exact H0|]. split; [exists []; symmetry; apply app_nil_r|].
      intros i p0 p E0 E. rewrite E0 in E. injection E as <-. exists st0. split; [reflexivity|]. split; [apply HN; eapply nth_error_In, E0|]. split; [apply incl_refl|]. cbn. lia.
    Qed.
    Lemma together_turn schedule s i : together schedule s -> together (schedule ++ [i]) (turn hash s i).
    Proof.
      intros (T1 & T2 & T3 & (u & T4) & T5). unfold turn. destruct (nth_error (sh_work s) i) as [p|] eqn:Ep.
      - assert (Hi : i < length (sh_work s)) by (apply nth_error_Some; congruence).
        destruct (nth_error ps i) as [p0|] eqn:Ep0; [|apply nth_error_None in Ep0; lia].
        assert (Hin : In p0 ps) by (eapply nth_error_In, Ep0).
        pose proof (same_end_step st0 (sh_store s) all p0 p _ HF T3 (HR p0 Hin) T2 (HL p0 Hin) (T5 i p0 p Ep0 Ep)) as HS.
        destruct (work_step hash (sh_store s) p) as [st' p']. destruct HS as (S1 & S2 & S3 & (u' & ->)).
        unfold together. cbn [sh_store sh_work]. split.
        { rewrite app_length, firstn_length. cbn [length]. rewrite skipn_length. lia. }
        split; [exact S2|]. split; [exact S3|]. split; [exists (u ++ u'); rewrite T4, app_assoc; reflexivity|].
        intros j q0 q Eq0 Eq. rewrite nth_put in Eq by exact Hi. unfold turns_of. rewrite count_occ_app. cbn [count_occ].
        destruct (Nat.eq_dec i j) as [<-|N].
        + rewrite Ep0 in Eq0. injection Eq0 as <-. injection Eq as <-. rewrite Nat.add_1_r. exact S1.
        + rewrite Nat.add_0_r. eapply same_end_grows; [|apply (T5 j q0 q Eq0 Eq)]. apply incl_appl, incl_refl.
      - unfold together. split; [exact T1|]. split; [exact T2|]. split; [exact T3|]. split; [exists u; exact T4|]. intros j q0 q Eq0 Eq.
        unfold turns_of. rewrite count_occ_app. cbn [count_occ]. destruct (Nat.eq_dec i j) as [<-|N]; [congruence|]. rewrite Nat.add_0_r. apply (T5 j q0 q Eq0 Eq).
    Qed.
    Lemma together_turns schedule : together schedule (turns hash (mkShared st0 ps) schedule).
    Proof.
      unfold turns. induction schedule as [|i l IH] using rev_ind; [exact together_start|]. rewrite fold_left_app. cbn [fold_left]. apply together_turn, IH.
    Qed.
  End Together.
End Shared.
