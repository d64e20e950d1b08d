(** * Every object that is written is written under the hash of its content. *)
From Verif Require Import Base BaseFacts Spec GeomModel GeomProofs BitmapModel DacModel StreamModel StreamProofs FixedModel ChunkModel ChunkStream ChunkReads
  NodeModel NodeProofs SuperModel SuperViews SuperProofs SuperInt ArrayModel ArrayProofs FloatModel FloatBuild DatasetModel DatasetProofs AppendProofs HistoryModel
  HistoryProofs.
Arguments Nat.pow : simpl never.

Definition addressed (hash : bytes -> cid) (st : store) : Prop := Forall (fun p => fst p = hash (snd p)) st.
Lemma addressed_app hash st st' : addressed hash (st ++ st') <-> addressed hash st /\ addressed hash st'.
Proof. apply Forall_app. Qed.
Lemma addressed_in hash st c b : addressed hash st -> In (c, b) st -> c = hash b.
Proof. intros H Hin. unfold addressed in H. rewrite Forall_forall in H. exact (H _ Hin). Qed.

(** Operations that write this way only. *)
Definition keyed (hash : bytes -> cid) {A} (m : op A) : Prop := forall st, addressed hash st -> addressed hash (fst (m st)).

Section Keyed.
  Variable hash : bytes -> cid.
  Notation keyed := (keyed hash).

  Lemma keyed_ret {A} (x : A) : keyed (oret x).
  Proof. intros st H. exact H. Qed.
  Lemma keyed_lift {A} (x : res A) : keyed (olift x).
  Proof. intros st H. exact H. Qed.
  Lemma keyed_load c : keyed (oload c).
  Proof. intros st H. exact H. Qed.
  Lemma addressed_save st n : addressed hash st -> addressed hash (snd (save hash st n)).
  Proof. intros H. unfold save. cbn [snd]. apply addressed_app. split; [exact H|]. constructor; [reflexivity|constructor]. Qed.
  Lemma keyed_save n : keyed (osave hash n).
  Proof. intros st H. unfold osave. apply (addressed_save st n) in H. destruct (save hash st n). exact H. Qed.
  Lemma keyed_bind {A B} (m : op A) (f : A -> op B) : keyed m -> (forall x, keyed (f x)) -> keyed (obind m f).
  Proof.
    intros Hm Hf st H. specialize (Hm st H). unfold obind. destruct (m st) as [st1 r]. cbn [fst] in Hm.
    destruct r as [x| | |]; try exact Hm. apply Hf. exact Hm.
  Qed.
  Lemma keyed_if {A} (b : bool) (m1 m2 : op A) : keyed m1 -> keyed m2 -> keyed (if b then m1 else m2).
  Proof. destruct b; trivial. Qed.
  Lemma keyed_ofold {S X} (f : S -> X -> op S) : (forall s x, keyed (f s x)) -> forall l s, keyed (ofold f s l).
  Proof. intros Hf. induction l as [|x l IH]; intros s; cbn [ofold]; [apply keyed_ret|]. apply keyed_bind; [apply Hf|exact IH]. Qed.

  Ltac keyed_auto :=
    repeat first
      [ apply keyed_bind | apply keyed_ret | apply keyed_lift | apply keyed_load | apply keyed_save | apply keyed_if | assumption
      | match goal with |- forall _, _ => intros ? | |- KeyProofs.keyed _ (let '(_, _) := ?p in _) => destruct p | |- KeyProofs.keyed _ (match ?p with [] => _ | _ :: _ => _ end) => destruct p end ].

  Lemma keyed_span_append s m : keyed (span_append hash s m).
  Proof. unfold span_append. keyed_auto. Qed.
  Lemma keyed_tail_loop cs : forall fuel m anc, keyed (tail_loop fuel cs m anc).
  Proof. induction fuel as [|fuel IH]; intros m anc; cbn [tail_loop]; keyed_auto. apply IH. Qed.
  Lemma keyed_tail_spans cs c : keyed (tail_spans cs c).
  Proof. unfold tail_spans. do 2 (apply keyed_bind; [first [apply keyed_load|apply keyed_lift]|intros ?]). apply keyed_tail_loop. Qed.
  Lemma keyed_update_up : forall spans m, keyed (update_up hash m spans).
  Proof. induction spans as [|p rest IH]; intros m; cbn [update_up]; keyed_auto. apply IH. Qed.
  Lemma keyed_save_spans spans : keyed (save_spans hash spans).
  Proof. unfold save_spans. destruct spans as [|m rest]; [apply keyed_lift|]. apply keyed_bind; [apply keyed_update_up|intros x; apply keyed_save]. Qed.
  Lemma keyed_open_loop ss rows cols enc : forall spans s l, keyed (open_loop hash ss rows cols enc s l spans).
  Proof. induction spans as [|p rest IH]; intros s l; cbn [open_loop]; keyed_auto. apply IH. Qed.
  Lemma keyed_create_open_span ss cs rows cols enc c : keyed (create_open_span hash ss cs rows cols enc c).
  Proof.
    unfold create_open_span. apply keyed_bind; [apply keyed_tail_spans|]. intros [|l rest]; [apply keyed_lift|].
    apply keyed_bind; [apply keyed_open_loop|]. intros [s a]. apply keyed_bind; [apply keyed_update_up|intros x; apply keyed_save].
  Qed.
  Lemma keyed_tail_data cs c : keyed (tail_data cs c).
  Proof. unfold tail_data. apply keyed_bind; [apply keyed_tail_spans|]. intros [|l rest]; keyed_auto. Qed.
  Lemma keyed_append_step build v instants rows cols x start : (forall a b, keyed (build a b)) ->
    keyed (append_step hash build v instants rows cols x start).
  Proof.
    intros Hb. unfold append_step. destruct x as [[root spans] upd]. apply keyed_bind; [apply Hb|]. intros chunk.
    destruct spans as [|m rest]; [apply keyed_lift|]. apply keyed_bind; [apply keyed_lift|]. intros s.
    apply keyed_bind.
    - apply keyed_if; [|apply keyed_ret]. apply keyed_bind; [apply keyed_save_spans|]. intros r1.
      apply keyed_bind; [apply keyed_create_open_span|]. intros r2. apply keyed_bind; [apply keyed_tail_spans|].
      intros [|m' rest']; keyed_auto.
    - intros [[r s'] rest']. keyed_auto.
  Qed.
  Lemma keyed_var_append build v instants rows cols upd : (forall a b, keyed (build a b)) ->
    keyed (var_append hash build v instants rows cols upd).
  Proof.
    intros Hb. unfold var_append. apply keyed_bind; [apply keyed_tail_spans|]. intros spans. apply keyed_bind; [apply keyed_lift|]. intros l.
    apply keyed_bind; [apply keyed_ofold; intros s x; apply keyed_append_step; exact Hb|]. intros [[r sp] u]. apply keyed_save_spans.
  Qed.

  Lemma addressed_tile s x : addressed hash (ss_store s) -> addressed hash (ss_store (save_tile hash s x)).
  Proof.
    intros H. unfold save_tile. destruct (snd x) as [b|]; [|exact H].
    unfold save. destruct (link_index _ _) as [i|]; cbn [ss_store]; (apply addressed_app; split; [exact H|constructor; [reflexivity|constructor]]).
  Qed.
  Lemma addressed_tiles ts : forall s, addressed hash (ss_store s) -> addressed hash (ss_store (fold_left (save_tile hash) ts s)).
  Proof. induction ts as [|x ts IH]; intros s H; cbn [fold_left]; [exact H|]. apply IH, addressed_tile, H. Qed.
  Lemma keyed_super_op {A} (E : elem A) k lc levels : forall g instants rows cols bits,
    keyed (super_op hash E k lc levels g instants rows cols bits).
  Proof.
    induction levels as [|level sub IH]; intros g instants rows cols bits; cbn [super_op]; (destruct (negb _); [apply keyed_lift|]); [apply keyed_lift|].
    apply keyed_bind; [apply keyed_lift|]. intros cs. apply keyed_bind.
    { apply keyed_ofold. intros ts rc. unfold tile_op. destruct (_ || _); [apply keyed_ret|].
      apply keyed_bind; [apply keyed_lift|]. intros mm. destruct (forallb _ mm); [apply keyed_ret|].
      apply keyed_bind; [apply keyed_lift|]. intros lf. apply keyed_bind; [apply keyed_lift|]. intros b.
      apply keyed_bind; [destruct lf; [apply keyed_lift|apply IH]|]. intros; apply keyed_ret. }
    intros ts. apply keyed_bind; [apply keyed_lift|]. intros mx. apply keyed_bind; [apply keyed_lift|]. intros mn st H.
    unfold finish_op, save.
    apply (keyed_bind (olift (dac_of mx))); [apply keyed_lift| |].
    - intros d1. apply keyed_bind; [apply keyed_lift|]. intros d2. apply keyed_ret.
    - apply addressed_app. split; [apply addressed_tiles; exact H|]. constructor; [reflexivity|constructor].
  Qed.
  Lemma keyed_build {A} lc (D : dtype A) v data a b : keyed (build_chunk hash lc D v data a b).
  Proof.
    unfold build_chunk. destruct (a3_shape data) as [[n h] w].
    apply keyed_bind; [apply keyed_lift|]. intros bits. apply keyed_bind; [apply keyed_super_op|]. intros; apply keyed_ret.
  Qed.
  Lemma keyed_read_tail {A} (D : dtype A) order fuel m : keyed (read_tail D order fuel m).
  Proof. intros st H. exact H. Qed.
  Lemma keyed_append {A} lc (D : dtype A) order fuel d name data : keyed (dataset_append hash lc D order fuel d name data).
  Proof.
    unfold dataset_append. destruct (find_var name (ds_vars d)) as [v|]; [|apply keyed_lift].
    apply keyed_bind; [apply keyed_tail_data|]. intros tail. apply keyed_bind; [|intros; apply keyed_ret].
    destruct tail as [m|].
    - apply keyed_bind; [apply keyed_read_tail|]. intros a. apply keyed_bind; [apply keyed_lift|]. intros a'.
      destruct (a3_shape a') as [[n h] w]. apply keyed_var_append. intros; apply keyed_build.
    - destruct (a3_shape data) as [[n h] w]. apply keyed_var_append. intros; apply keyed_build.
  Qed.
  Lemma keyed_add d name round ss cs levels enc : keyed (add_variable hash d name round ss cs levels enc).
  Proof. unfold add_variable. apply keyed_bind; [apply keyed_save|intros; apply keyed_ret]. Qed.
  Lemma keyed_event lc lg order fuel d e : keyed (run_event hash lc lg order fuel d e).
  Proof.
    destruct e as [c|t n a| |]; cbn [run_event].
    - apply keyed_add.
    - apply keyed_append.
    - apply keyed_bind; [apply keyed_save|intros; apply keyed_ret].
    - apply keyed_bind; [apply keyed_save|]. intros c st H. exact H.
  Qed.
  Lemma keyed_run lc lg order fuel d l : keyed (run hash lc lg order fuel d l).
  Proof. apply keyed_ofold. intros; apply keyed_event. Qed.
End Keyed.

(** The identifier of an object that loads. *)
Lemma got_identifier hash st c m : written st -> addressed hash st -> get_mm st c = Ok m -> c = hash (node_bytes (NMM m)).
Proof.
  intros HW HA. unfold get_mm, retrieve. destruct (store_get st c) as [b|] eqn:E; cbn [bind]; [|discriminate]. apply store_get_some in E.
  pose proof (addressed_in _ _ _ _ HA E) as Hc. unfold written in HW. rewrite Forall_forall in HW. destruct (HW _ E) as (n0 & [W NL] & Eb). cbn [snd] in Eb. subst b.
  destruct (node_reads c n0 [] W) as (r & Er). rewrite app_nil_r in Er. rewrite Er. cbn [bind fst].
  destruct n0 as [d|l|m0]; cbn [loaded]; try discriminate. intros H. injection H as <-. exact Hc.
Qed.
