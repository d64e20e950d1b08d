(** * What sessions leave in the store. *)
From Coq Require Import ZArith Reals Permutation.
From Flocq Require Import Core.Core IEEE754.BinarySingleNaN.
From Verif Require Import Base BaseFacts Spec FixedModel GeomModel GeomProofs BitmapModel DacModel DacProofs StreamModel StreamProofs ChunkModel ChunkProofs
  ChunkReads ChunkStream NodeModel NodeProofs SuperModel SuperViews SuperProofs SuperLinks SuperInt ArrayModel ArrayProofs ReadRange FloatModel FloatProofs DatasetModel DatasetProofs
  AppendProofs KeepProofs FlatProofs HistoryModel HistoryProofs SessionModel SessionSpec.
Ltac Zify.zify_post_hook ::= Z.div_mod_to_equations.
Arguments Nat.pow : simpl never.
Close Scope R_scope.
Open Scope nat_scope.

(** ** Only [commit] writes datasets *)
Definition not_dataset (n : NodeModel.node) : Prop := match n with NDataset _ => False | _ => True end.
Definition quietly (st st' : store) : Prop := exists l, st' = st ++ l /\ Forall (fun p : cid * bytes => exists n, snd p = node_bytes n /\ not_dataset n) l.
Definition quiet {A} (m : op A) : Prop := forall st, quietly st (fst (m st)).
Lemma quietly_refl st : quietly st st.
Proof. exists []. split; [symmetry; apply app_nil_r|constructor]. Qed.
Lemma quietly_trans a b c : quietly a b -> quietly b c -> quietly a c.
Proof. intros (l & -> & F) (l' & -> & F'). exists (l ++ l'). split; [symmetry; apply app_assoc|]. apply Forall_app. split; assumption. Qed.
Lemma quietly_save hash st n : not_dataset n -> quietly st (snd (save hash st n)).
Proof. intros H. eexists. split; [reflexivity|]. constructor; [|constructor]. exists n. split; [reflexivity|exact H]. Qed.
Lemma quiet_ret {A} (x : A) : quiet (oret x).
Proof. intros st. apply quietly_refl. Qed.
Lemma quiet_lift {A} (x : res A) : quiet (olift x).
Proof. intros st. apply quietly_refl. Qed.
Lemma quiet_load c : quiet (oload c).
Proof. intros st. apply quietly_refl. Qed.
Lemma quiet_save hash n : not_dataset n -> quiet (osave hash n).
Proof. intros H st. apply (quietly_save hash st n H). Qed.
Lemma quiet_bind {A B} (m : op A) (f : A -> op B) : quiet m -> (forall x, quiet (f x)) -> quiet (obind m f).
Proof.
  intros Hm Hf st. unfold obind. specialize (Hm st). destruct (m st) as [st1 r]. cbn [fst] in Hm. destruct r as [x| | |]; try exact Hm.
  eapply quietly_trans; [exact Hm|apply Hf].
Qed.
Lemma quiet_if {A} (b : bool) (m1 m2 : op A) : quiet m1 -> quiet m2 -> quiet (if b then m1 else m2).
Proof. destruct b; trivial. Qed.
Lemma quiet_ofold {S X} (f : S -> X -> op S) : (forall s x, quiet (f s x)) -> forall l s, quiet (ofold f s l).
Proof. intros Hf. induction l as [|x l IH]; intros s; cbn [ofold]; [apply quiet_ret|]. apply quiet_bind; [apply Hf|exact IH]. Qed.
Ltac quiet_auto :=
  repeat first
    [ apply quiet_bind | apply quiet_ret | apply quiet_lift | apply quiet_load | apply quiet_save; exact I | apply quiet_if | assumption
    | match goal with |- forall _, _ => intros ? | |- quiet (let '(_, _) := ?p in _) => destruct p | |- quiet (match ?p with [] => _ | _ :: _ => _ end) => destruct p end ].
Lemma quiet_span_append hash s m : quiet (span_append hash s m).
Proof. unfold span_append. quiet_auto. Qed.
Lemma quiet_span_update hash s m : quiet (span_update hash s m).
Proof. apply quiet_span_append. Qed.
Lemma quiet_tail_loop cs : forall fuel m anc, quiet (tail_loop fuel cs m anc).
Proof. induction fuel as [|fuel IH]; intros m anc; cbn [tail_loop]; quiet_auto. apply IH. Qed.
Lemma quiet_tail_spans cs c : quiet (tail_spans cs c).
Proof. unfold tail_spans. do 2 (apply quiet_bind; [first [apply quiet_load|apply quiet_lift]|intros ?]). apply quiet_tail_loop. Qed.
Lemma quiet_update_up hash : forall spans m, quiet (update_up hash m spans).
Proof. induction spans as [|p rest IH]; intros m; cbn [update_up]; quiet_auto. apply IH. Qed.
Lemma quiet_save_spans hash spans : quiet (save_spans hash spans).
Proof. unfold save_spans. destruct spans as [|m rest]; [apply quiet_lift|]. apply quiet_bind; [apply quiet_update_up|intros x; apply quiet_save; exact I]. Qed.
Lemma quiet_open_loop hash ss rows cols enc : forall spans s l, quiet (open_loop hash ss rows cols enc s l spans).
Proof. induction spans as [|p rest IH]; intros s l; cbn [open_loop]; quiet_auto. apply IH. Qed.
Lemma quiet_create_open_span hash ss cs rows cols enc c : quiet (create_open_span hash ss cs rows cols enc c).
Proof.
  unfold create_open_span. apply quiet_bind; [apply quiet_tail_spans|]. intros [|l rest]; [apply quiet_lift|].
  apply quiet_bind; [apply quiet_open_loop|]. intros [s a]. apply quiet_bind; [apply quiet_update_up|intros x; apply quiet_save; exact I].
Qed.
Lemma quiet_tail_data cs c : quiet (tail_data cs c).
Proof. unfold tail_data. apply quiet_bind; [apply quiet_tail_spans|]. intros [|l rest]; quiet_auto. Qed.
Lemma quiet_append_step hash build v instants rows cols x start : (forall a b, quiet (build a b)) ->
  quiet (append_step hash build v instants rows cols x start).
Proof.
  intros Hb. unfold append_step. destruct x as [[root spans] upd]. apply quiet_bind; [apply Hb|]. intros chunk.
  destruct spans as [|m rest]; [apply quiet_lift|]. apply quiet_bind; [apply quiet_lift|]. intros s.
  apply quiet_bind.
  - apply quiet_if; [|apply quiet_ret]. apply quiet_bind; [apply quiet_save_spans|]. intros r1.
    apply quiet_bind; [apply quiet_create_open_span|]. intros r2. apply quiet_bind; [apply quiet_tail_spans|].
    intros [|m' rest']; quiet_auto.
  - intros [[r s'] rest']. quiet_auto.
Qed.
Lemma quiet_var_append hash build v instants rows cols upd : (forall a b, quiet (build a b)) ->
  quiet (var_append hash build v instants rows cols upd).
Proof.
  intros Hb. unfold var_append. apply quiet_bind; [apply quiet_tail_spans|]. intros spans. apply quiet_bind; [apply quiet_lift|]. intros l.
  apply quiet_bind; [apply quiet_ofold; intros s x; apply quiet_append_step; exact Hb|]. intros [[r sp] u]. apply quiet_save_spans.
Qed.
Lemma quietly_tiles hash tiles : forall s, quietly (ss_store s) (ss_store (fold_left (save_tile hash) tiles s)).
Proof.
  induction tiles as [|x tiles IH]; intros s; cbn [fold_left]; [apply quietly_refl|].
  eapply quietly_trans; [|apply IH]. unfold save_tile. destruct (snd x) as [b|]; [|apply quietly_refl].
  pose proof (quietly_save hash (ss_store s) (NMM (mb_data b)) I) as H.
  unfold save in *. destruct (link_index _ _) as [i|]; exact H.
Qed.
Lemma quiet_super_op {A} hash (E : elem A) k lc levels : forall g instants rows cols bits,
  quiet (super_op hash E k lc levels g instants rows cols bits).
Proof.
  induction levels as [|level sub IH]; intros g instants rows cols bits; cbn [super_op]; (destruct (negb _); [apply quiet_lift|]); [apply quiet_lift|].
  apply quiet_bind; [apply quiet_lift|]. intros cs. apply quiet_bind.
  { apply quiet_ofold. intros ts rc. unfold tile_op. destruct (_ || _); [apply quiet_ret|].
    apply quiet_bind; [apply quiet_lift|]. intros mm. destruct (forallb _ mm); [apply quiet_ret|].
    apply quiet_bind; [apply quiet_lift|]. intros lf. apply quiet_bind; [apply quiet_lift|]. intros b.
    apply quiet_bind; [destruct lf; [apply quiet_lift|apply IH]|]. intros; apply quiet_ret. }
  intros ts. apply quiet_bind; [apply quiet_lift|]. intros mx. apply quiet_bind; [apply quiet_lift|]. intros mn st.
  unfold finish_op. pose proof (quietly_tiles hash ts (mkSave st [] [] 0 0 0 0)) as H1. set (s := fold_left _ ts _) in *.
  pose proof (quietly_save hash (ss_store s) (NLinks (ss_links s)) I) as H2. unfold save in *. cbn [snd ss_store] in *.
  eapply quietly_trans; [exact H1|]. eapply quietly_trans; [exact H2|].
  apply (quiet_bind (olift (dac_of mx))); [apply quiet_lift|]. intros d1. apply quiet_bind; [apply quiet_lift|]. intros d2. apply quiet_ret.
Qed.
Lemma quiet_append {A} hash lc (D : dtype A) order fuel d name data : quiet (dataset_append hash lc D order fuel d name data).
Proof.
  assert (HB : forall v data a b, quiet (build_chunk hash lc D v data a b)).
  { intros v data0 a b. unfold build_chunk. destruct (a3_shape data0) as [[n h] w].
    apply quiet_bind; [apply quiet_lift|]. intros bits. apply quiet_bind; [apply quiet_super_op|]. intros; apply quiet_ret. }
  unfold dataset_append. destruct (find_var name (ds_vars d)) as [v|]; [|apply quiet_lift].
  apply quiet_bind; [apply quiet_tail_data|]. intros tail. apply quiet_bind; [|intros; apply quiet_ret].
  destruct tail as [m|].
  - apply quiet_bind; [intros st; apply quietly_refl|]. intros a. apply quiet_bind; [apply quiet_lift|]. intros a'.
    destruct (a3_shape a') as [[n h] w]. apply quiet_var_append. apply HB.
  - destruct (a3_shape data) as [[n h] w]. apply quiet_var_append. apply HB.
Qed.
Lemma quiet_add hash d name round ss cs levels enc : quiet (add_variable hash d name round ss cs levels enc).
Proof. unfold add_variable. apply quiet_bind; [apply quiet_save; exact I|]. intros; apply quiet_ret. Qed.

Lemma not_dataset_read n c d r : not_dataset n -> node_read c (node_bytes n) <> Ok (NDataset d, r).
Proof.
  intros H. unfold node_read, node_bytes. unfold rbind at 1.
  replace (write_u16 magic_number ++ write_u32 format_version ++ write_byte (node_type n) ++ node_body n)
    with ((write_u16 magic_number ++ write_u32 format_version ++ write_byte (node_type n)) ++ node_body n)
    by (rewrite <- !app_assoc; reflexivity).
  rewrite (header_reads _ (node_type_byte n)). cbn [bind fst snd].
  destruct n as [d'|l|m]; [destruct H| |]; cbn [node_type node_body N.eqb Pos.eqb]; unfold rbind.
  - destruct (links_read _) as [[l' r']| | |]; cbn [bind fst snd]; unfold rret; discriminate.
  - destruct (mm_read _) as [[l' r']| | |]; cbn [bind fst snd]; unfold rret; discriminate.
Qed.

(** ** Values *)

Lemma int_elem_ok enc : elem_ok (int_elem enc) i64_range.
Proof. constructor; cbn [int_elem el_fixed el_bits]; intros; congruence. Qed.
Lemma to_fixed_i64 {prec emax} Hp He (x : binary_float prec emax) b round z : to_fixed (Hp := Hp) (He := He) x b round = Ok z -> i64_range z.
Proof.
  unfold to_fixed. destruct (is_nan x); [intros H; injection H as <-; exact (wrap64_range 0)|]. destruct (negb _); [discriminate|].
  intros H. apply bind_inv in H. destruct H as (y & _ & H). destruct (f_to_i64 _); [|discriminate]. injection H as <-. apply wrap64_range.
Qed.
Lemma float_elem_ok {prec emax} Hp He enc round lg : elem_ok (float_elem (prec := prec) (emax := emax) (Hp := Hp) (He := He) enc round lg) (fun _ => True).
Proof.
  constructor; cbn [float_elem el_fixed el_bits].
  - intros b x z _ H. eapply to_fixed_i64. exact H.
  - intros b l b' Hb H. apply bind_inv in H. destruct H as (s & Es & H). pose proof (suggest_bits lg l s Es) as Hs.
    destruct round.
    + injection H as <-. unfold fits8 in *. destruct s; lia.
    + destruct s; [|discriminate]. injection H as <-. unfold fits8. lia.
Qed.
Lemma dtype_ok lg t round : match round with Some b => fits8 b | None => True end ->
  elem_ok (dt_elem (dt_of lg t) round) (value_ok t) /\ fits8 (dt_bits (dt_of lg t) round).
Proof.
  intros H. assert (H0 : fits8 0) by (unfold fits8; lia).
  destruct t; cbn [dt_of dt_elem dt_bits dt_i32 dt_i64 dt_f32 dt_f64 value_ok].
  - split; [apply int_elem_ok|exact H0].
  - split; [apply int_elem_ok|exact H0].
  - split; [apply float_elem_ok|destruct round; [exact H|exact H0]].
  - split; [apply float_elem_ok|destruct round; [exact H|exact H0]].
Qed.
Lemma reader_ok lg t : value_ok t (rd_zero (dt_reader (dt_of lg t))) /\ forall b z, i64_range z -> value_ok t (rd_set (dt_reader (dt_of lg t)) b z).
Proof.
  destruct t; cbn [dt_of dt_reader dt_i32 dt_i64 dt_f32 dt_f64 value_ok]; (split; [try exact I; exact (wrap64_range 0)|]); intros b z H; try exact I; cbn [reader_i32 reader_i64 rd_set].
  - unfold as_i32, i64_range, two63 in *. lia.
  - exact H.
Qed.

(** ** Datasets that can be used *)
Section Sound.
  Variables (hash : bytes -> cid) (lc : nat -> nat) (lg : f64 -> nat) (order : list call -> list call) (fuel N C S : nat).
  Hypothesis Hhash : forall b, wf_cid (hash b).
  Hypothesis Horder : forall l, Permutation l (order l).
  Hypothesis FN : fits32 N.
  Hypothesis HS : sizes_ok 2 lc C S.
  Hypothesis HC : 1 <= C.

  Lemma side_fits n : 1 <= n <= S -> fits32 n.
  Proof.
    intros Hn. destruct (HS n Hn) as [H1 H2]. eapply fits32_le; [|exact H2]. clear -H1 Hn HC. nia.
  Qed.

  Definition tree_of (rows cols : nat) (st : store) (v : variable) : Prop :=
    exists T e, T <= N /\ tree rows cols (va_chunk_size v) (va_span_size v) (va_enc v) any_leaf st (va_cid v) T e.
  Record sound_var (rows cols : nat) (st : store) (v : variable) : Prop := {
    sv_wf : wf_variable v; sv_chunk : va_chunk_size v <= C;
    sv_tree : (2 <= va_span_size v /\ 1 <= va_chunk_size v /\ tree_of rows cols st v) \/
              ((va_span_size v <= 1 \/ va_chunk_size v = 0) /\ exists T, flat_tree rows cols (va_chunk_size v) (va_span_size v) st (va_cid v) T) }.
  Definition there (st : store) (o : option cid) : Prop := match o with Some c => wf_cid c /\ has st c | None => True end.
  Record sound (st : store) (d : dataset) : Prop := {
    so_nrows : 1 <= ds_rows d <= S; so_ncols : 1 <= ds_cols d <= S;
    so_coords : let '(c1, c2, c3) := ds_coords d in wf_coord c1 /\ wf_coord c2 /\ wf_coord c3;
    so_count : length (ds_vars d) <= 255; so_vars : Forall (sound_var (ds_rows d) (ds_cols d) st) (ds_vars d);
    so_prev : there st (ds_prev d) }.
  Definition usable (st : store) (d : dataset) : Prop := sound st d /\ there st (ds_cid d).

  Lemma there_incl st st' o : incl st st' -> there st o -> there st' o.
  Proof. apply opt_incl. Qed.
  Lemma sound_var_incl rows cols st st' v : incl st st' -> functional st' -> sound_var rows cols st v -> sound_var rows cols st' v.
  Proof.
    intros HI HF [H1 H2 [(H3 & H4 & T & e & HT & H5)|(H3 & T & H4)]]; constructor; auto.
    - left. split; [exact H3|]. split; [exact H4|]. exists T, e. split; [exact HT|]. eapply tree_incl; eassumption.
    - right. split; [exact H3|]. exists T. eapply flat_tree_incl; eassumption.
  Qed.
  Lemma sound_incl st st' d : incl st st' -> functional st' -> sound st d -> sound st' d.
  Proof.
    intros HI HF [H1 H2 H3 H4 H5 H6]. constructor; auto; [|eapply there_incl; eassumption].
    eapply Forall_impl; [|exact H5]. intros v Hv. eapply sound_var_incl; eassumption.
  Qed.
  Lemma usable_incl st st' d : incl st st' -> functional st' -> usable st d -> usable st' d.
  Proof. intros HI HF [H1 H2]. split; [eapply sound_incl; eassumption|eapply there_incl; eassumption]. Qed.
  Lemma next_prev_there st d : usable st d -> there st (next_prev d).
  Proof. intros [[_ _ _ _ _ H] H']. unfold next_prev. destruct (ds_cid d); assumption. Qed.

  Lemma sound_anchored st d : sound st d -> anchored st (NDataset d).
  Proof.
    intros [H1 H2 H3 H4 H5 H6]. split.
    - split; [|exact I]. constructor; auto using side_fits.
      + unfold fits8 in *. clear -H4. lia.
      + eapply Forall_impl; [|exact H5]. intros v [Hv _ _]. exact Hv.
      + destruct (ds_prev d); [apply H6|exact I].
    - cbn [refs]. intros x Hx. apply in_app_or in Hx. destruct Hx as [Hx|Hx].
      + apply in_map_iff in Hx. destruct Hx as (v & <- & Hv). rewrite Forall_forall in H5.
        destruct (H5 v Hv) as [_ _ [(_ & _ & T & e & _ & _ & m & h & G & _)|(_ & T & _ & s & G & _)]]; eapply has_get_mm, G.
      + destruct (ds_prev d) as [c|]; [|destruct Hx]. destruct Hx as [<-|[]]. apply H6.
  Qed.

  (** *** Appending *)
  Notation data_ok := (data_ok S).

  Lemma keeps_build t v data n r c st start len : wf_variable v -> 1 <= va_chunk_size v <= C ->
    functional st -> a3_shape data = (n, r, c) -> data_ok t data -> start < n -> len = Nat.min (va_chunk_size v) (n - start) ->
    keeps (build_chunk hash lc (dt_of lg t) v data start len) st
      (fun m st' => anchored st' (NMM m) /\ mm_shape m = Ok (len, r, c)).
  Proof.
    intros Wv Hcs HF Es HD Hst Hlen. unfold data_ok in HD. rewrite Es in HD. destruct HD as (Hr & Hc & HV).
    destruct (dtype_ok lg t (va_round v) (wv_round _ Wv)) as [HE HB].
    unfold build_chunk. rewrite Es. apply keeps_lift_bind. intros bits Eb. pose proof (eo_bits _ _ HE _ _ _ HB Eb) as Hbits.
    assert (Hl : 1 <= len <= C) by (clear -Hlen Hst Hcs; lia).
    eapply keeps_bind; [apply mono_super_op|intros; apply mono_ret| |].
    - apply (keeps_super hash (dt_elem (dt_of lg t) (va_round v)) 2 lc (value_ok t) Hhash (le_n 2) ltac:(unfold fits8; lia) HE); auto; try lia.
      + intros m Hm. destruct (HS m ltac:(clear -Hm Hr Hc; lia)) as [B1 B2]. split; [exact B1|]. eapply fits32_le; [|exact B2]. apply Nat.mul_le_mono_l. apply Hl.
      + intros i j k Hi Hj Hk. apply HV; [clear -Hi Hlen Hst; lia|assumption|assumption].
    - intros b st' _ _ [H1 H2]. apply keeps_ret. split; [exact H1|exact H2].
  Qed.

  Lemma keeps_read t m n rows cols st : mm_shape m = Ok (n, rows, cols) ->
    keeps (read_tail (dt_of lg t) order fuel m) st (fun a st' => st' = st /\ a3_shape a = (n, rows, cols) /\ forall i j k, value_ok t (a3_at a i j k)).
  Proof.
    intros Sm _. unfold read_tail. cbn [fst snd]. split; [apply grown_refl|]. intros a H. rewrite Sm in H. cbn [bind] in H.
    apply bind_inv in H. destruct H as (l & El & H). apply mm_fill_window_i64 in El. split; [reflexivity|].
    destruct (reader_ok lg t) as [R0 R1].
    eapply (run3_all _ (value_ok t)); [| | |exact H].
    - reflexivity.
    - intros i j k. exact R0.
    - eapply Permutation_Forall; [apply Horder|]. eapply Forall_impl; [|exact El]. intros x Hx. apply R1. exact Hx.
  Qed.

  Lemma keeps_append t d name data n st : functional st -> sound st d -> there st (ds_cid d) -> data_ok t data -> instants3 data = n ->
    (forall v m T r c, find_var name (ds_vars d) = Some v -> get_mm st (va_cid v) = Ok m -> mm_shape m = Ok (T, r, c) -> T + n <= N) ->
    keeps (dataset_append hash lc (dt_of lg t) order fuel d name data) st (fun d' st' => usable st' d').
  Proof.
    intros HF Hd Hcid HD Hn HBN. pose proof (next_prev_there st d (conj Hd Hcid)) as Hnp. pose proof Hd as [D1 D2 D3 D4 D5 D6].
    unfold dataset_append. destruct (find_var name (ds_vars d)) as [v|] eqn:Ev; [|apply keeps_lift; intros; discriminate].
    pose proof (find_some _ _ Ev) as [Hin _]. pose proof (proj1 (Forall_forall _ _) D5 v Hin) as Hv.
    pose proof Hv as [Wv HcC Hcase].
    set (rows := ds_rows d) in *. set (cols := ds_cols d) in *. set (cs := va_chunk_size v) in *. set (ss := va_span_size v) in *.
    assert (Fr : fits32 rows) by (apply side_fits; exact D1). assert (Fc : fits32 cols) by (apply side_fits; exact D2).
    pose proof (wv_chunk _ Wv) as Fcs. pose proof (wv_span _ Wv) as Fss. fold cs in Fcs. fold ss in Fss.
    destruct (a3_shape data) as [[n' r] c] eqn:Es. unfold instants3 in Hn. rewrite Es in Hn. cbn [fst] in Hn. subst n'.
    assert (Mb : forall data0 u, mono (let '(n0, rows0, cols0) := a3_shape data0 in var_append hash (build_chunk hash lc (dt_of lg t) v data0) v n0 rows0 cols0 u)).
    { intros data0 u. destruct (a3_shape data0) as [[n0 h0] w0]. apply mono_var_append. intros; apply mono_build. }
    assert (Mt : forall tail : option mmstruct, mono (match tail with
      | Some m => obind (read_tail (dt_of lg t) order fuel m) (fun a => obind (olift (join3 a data)) (fun a' =>
          let '(n0, rows0, cols0) := a3_shape a' in var_append hash (build_chunk hash lc (dt_of lg t) v a') v n0 rows0 cols0 true))
      | None => var_append hash (build_chunk hash lc (dt_of lg t) v data) v n r c false end)).
    { intros [m|]; [|apply mono_var_append; intros; apply mono_build]. apply mono_bind; [apply mono_read_tail|]. intros a. apply mono_bind; [apply mono_lift|]. intros; apply Mb. }
    assert (Hfin : forall ci st', incl st st' -> functional st' -> sound_var rows cols st' (with_var_cid v ci) ->
      keeps (oret (mkDataset (ds_coords d) (replace_var (with_var_cid v ci) (ds_vars d)) (ds_rows d) (ds_cols d) None (next_prev d))) st' (fun d' st'' => usable st'' d')).
    { intros ci st' HI HF' Hnew. apply keeps_ret. split; [|exact I].
      constructor; cbn [ds_rows ds_cols ds_coords ds_vars ds_prev ds_cid]; auto.
      + replace (length (replace_var (with_var_cid v ci) (ds_vars d))) with (length (ds_vars d)); [exact D4|].
        clear. induction (ds_vars d) as [|x l IH]; cbn [replace_var length]; [reflexivity|]. destruct (bytes_eqb _ _); cbn [length]; congruence.
      + fold rows cols. revert D5 Hnew. generalize (ds_vars d), (with_var_cid v ci). intros l w D5 Hnew. induction D5 as [|x l Hx D5 IH]; cbn [replace_var]; [constructor|].
        assert (Hl : Forall (sound_var rows cols st') l).
        { eapply Forall_impl; [|exact D5]. intros y Hy. eapply sound_var_incl; [exact HI|exact HF'|exact Hy]. }
        destruct (bytes_eqb _ _); constructor; auto. eapply sound_var_incl; [exact HI|exact HF'|exact Hx].
      + eapply there_incl; [exact HI|exact Hnp]. }
    destruct Hcase as [(Hss & Hcs1 & T & e & HTB & HT)|(Hodd & T & HT)].
    { assert (Hcs : 1 <= cs <= C) by (split; assumption).
      assert (HBN' : T + n <= N) by (pose proof HT as (_ & m & h & G & HN & _); eapply (HBN v m T rows cols eq_refl G); exact (node_shape _ _ _ _ _ _ _ _ _ _ _ _ HN)).
      eapply keeps_bind; [apply mono_tail_data|intros tail; apply mono_bind; [apply Mt|intros; apply mono_ret]|
        apply ok_keeps; apply (ok_tail_data rows cols cs ss (va_enc v) any_leaf (proj1 Hcs) Hss st _ T e HF HT)|].
      intros tail st1 _ _ (-> & Ht).
      eapply (keeps_bind _ _ _ (fun ci st' => exists e', tree rows cols cs ss (va_enc v) any_leaf st' ci (T + n) e')); [apply Mt|intros; apply mono_ret| |].
      - destruct (tree_multiple rows cols cs ss (va_enc v) any_leaf (proj1 Hcs) Hss st _ T e HF HT) as (j & Hj & Hm).
        destruct tail as [m|].
        + destruct Ht as (Hp & HpT & HL). set (p := e mod cs) in *. pose proof HL as (_ & Sm & _).
          eapply keeps_bind; [apply mono_read_tail|intros; apply mono_bind; [apply mono_lift|intros; apply Mb]|apply (keeps_read t m p rows cols st Sm)|].
          intros a st1 _ _ (-> & Ea & Va). apply keeps_lift_bind. intros a' Ej.
          unfold join3 in Ej. rewrite Ea, Es in Ej. destruct (Nat.eqb_spec rows r) as [Er|]; [|discriminate]. destruct (Nat.eqb_spec cols c) as [Ec|]; [|discriminate].
          cbn [andb] in Ej. injection Ej as <-. cbn [a3_shape].
          set (a' := mkArray3 (p + n, rows, cols) (fun t r c => if t <? p then a3_at a t r c else a3_at data (t - p) r c)).
          assert (HD' : data_ok t a').
          { unfold data_ok in *. rewrite Es in HD. destruct HD as (_ & _ & HV). unfold a'. cbn [a3_shape a3_at]. split; [exact D1|]. split; [exact D2|].
            intros x y z Hx Hy Hz. destruct (Nat.ltb_spec x p); [apply Va|]. apply HV; [clear -H Hx; lia|rewrite <- Er; exact Hy|rewrite <- Ec; exact Hz]. }
          eapply keeps_post; [apply mono_var_append; intros; apply mono_build| |].
          * apply (keeps_var_append hash rows cols cs ss (va_enc v) Hhash (proj1 Hcs) Hss Fr Fc Fcs Fss N FN v (build_chunk hash lc (dt_of lg t) v a') (T - p) (p + n)
              eq_refl eq_refl eq_refl) with (T := T) (e := e) (upd := true); auto.
            -- intros; apply mono_build.
            -- clear -HpT HBN'. lia.
            -- intros st2 start len HF2 Hst Hlen. eapply keeps_post; [apply mono_build|apply (keeps_build t v a' (p + n) rows cols st2 start len Wv Hcs HF2 eq_refl HD' Hst Hlen)|].
               intros m' st' _ _ [X1 X2]. split; [exact X1|]. split; [exact X2|]. intros; exact I.
            -- fold p. clear -HpT. lia.
            -- fold p. split; [exact Hp|clear; lia].
          * intros ci st' _ _ (e' & HT'). exists e'. replace (T - p + (p + n)) with (T + n) in HT' by (clear -HpT; lia). exact HT'.
        + assert (HB0 : forall st2 start len, functional st2 -> start < n -> len = Nat.min cs (n - start) ->
            keeps (build_chunk hash lc (dt_of lg t) v data start len) st2 (fun m st' => anchored st' (NMM m) /\ mm_shape m = Ok (len, r, c))).
          { intros st2 start len HF2 Hst Hlen. exact (keeps_build t v data n r c st2 start len Wv Hcs HF2 Es HD Hst Hlen). }
          assert (Dec : (r, c) = (rows, cols) \/ (r, c) <> (rows, cols)).
          { destruct (Nat.eq_dec r rows); [destruct (Nat.eq_dec c cols); [left; congruence|right; congruence]|right; congruence]. }
          destruct Dec as [Eq|Ne].
          * injection Eq as -> ->.
            apply (keeps_var_append hash rows cols cs ss (va_enc v) Hhash (proj1 Hcs) Hss Fr Fc Fcs Fss N FN v (build_chunk hash lc (dt_of lg t) v data) T n
              eq_refl eq_refl eq_refl) with (T := T) (e := e) (upd := false); auto.
            -- intros; apply mono_build.
            -- intros st2 start len HF2 Hst Hlen. eapply keeps_post; [apply mono_build|apply (HB0 st2 start len HF2 Hst Hlen)|].
               intros m' st' _ _ [X1 X2]. split; [exact X1|]. split; [exact X2|]. intros; exact I.
          * unfold data_ok in HD. rewrite Es in HD. destruct HD as (Hr & Hc & _).
            apply (bad_var_append hash rows cols cs ss (va_enc v) Hhash (proj1 Hcs) Hss Fr Fc Fcs Fss N FN r c Ne (side_fits r Hr) (side_fits c Hc) v
              (build_chunk hash lc (dt_of lg t) v data) n st T e eq_refl eq_refl eq_refl); auto.
            -- intros; apply mono_build.
            -- intros st2 start len HF2 Hst Hlen. eapply keeps_post; [apply mono_build|apply (HB0 st2 start len HF2 Hst Hlen)|].
               intros m' st' _ _ [_ X2]. exact X2.
  - intros ci st' HI HF' (e' & HT'). apply (Hfin ci st'); [assumption|assumption|].
        destruct Wv as [W1 W2 W3 W4 W5 W6 W7]. constructor; cbn [with_var_cid va_span_size va_chunk_size]; auto.
        + constructor; cbn [with_var_cid va_name va_round va_span_size va_chunk_size va_levels va_cid]; auto. apply HT'.
        + left. split; [exact Hss|]. split; [exact Hcs1|]. exists (T + n), e'. split; [exact HBN'|exact HT']. }
    (* a configuration that leaves no room *)
    pose proof (flat_tail_data rows cols cs ss st (va_cid v) T HT) as (o & Etail & Ho).
    eapply (keeps_bind _ _ _ (fun tail st' => st' = st /\ forall m, tail = Some m -> mm_shape m = Ok (T, rows, cols)));
      [apply mono_tail_data|intros tail; apply mono_bind; [apply Mt|intros; apply mono_ret]| |].
    { intros _. rewrite Etail. split; [apply grown_refl|]. intros x Ex. injection Ex as <-. auto. }
    intros tail st1 _ _ (-> & Ht).
    eapply (keeps_bind _ _ _ (fun ci st' => exists T', flat_tree rows cols cs ss st' ci T')); [apply Mt|intros; apply mono_ret| |].
    - destruct tail as [m|].
      + pose proof (Ht m eq_refl) as Sm.
        eapply keeps_bind; [apply mono_read_tail|intros; apply mono_bind; [apply mono_lift|intros; apply Mb]|apply (keeps_read t m T rows cols st Sm)|].
        intros a st1 _ _ (-> & Ea & Va). apply keeps_lift_bind. intros a' Ej.
        unfold join3 in Ej. rewrite Ea, Es in Ej. destruct (Nat.eqb_spec rows r) as [Er|]; [|discriminate]. destruct (Nat.eqb_spec cols c) as [Ec|]; [|discriminate].
        cbn [andb] in Ej. injection Ej as <-. cbn [a3_shape].
        set (a' := mkArray3 (T + n, rows, cols) (fun t r c => if t <? T then a3_at a t r c else a3_at data (t - T) r c)).
        assert (HD' : data_ok t a').
        { unfold data_ok in *. rewrite Es in HD. destruct HD as (_ & _ & HV). unfold a'. cbn [a3_shape a3_at]. split; [exact D1|]. split; [exact D2|].
          intros x y z Hx Hy Hz. destruct (Nat.ltb_spec x T); [apply Va|]. apply HV; [clear -H Hx; lia|rewrite <- Er; exact Hy|rewrite <- Ec; exact Hz]. }
        apply (flat_var_append hash rows cols cs ss Hhash Fcs v (build_chunk hash lc (dt_of lg t) v a') (T + n) rows cols true st T); auto.
        * intros; apply mono_build.
        * intros st2 start len HF2 Hcs1 Hst Hlen. apply (keeps_build t v a' (T + n) rows cols st2 start len Wv (conj Hcs1 HcC) HF2 eq_refl HD' Hst Hlen).
      + unfold data_ok in HD. rewrite Es in HD. pose proof HD as (Hr & Hc & _).
        apply (flat_var_append hash rows cols cs ss Hhash Fcs v (build_chunk hash lc (dt_of lg t) v data) n r c false st T); auto.
        * apply side_fits; exact Hr.
        * apply side_fits; exact Hc.
        * intros; apply mono_build.
        * intros st2 start len HF2 Hcs1 Hst Hlen. apply (keeps_build t v data n r c st2 start len Wv (conj Hcs1 HcC) HF2 Es); auto. unfold data_ok. rewrite Es. exact HD.
    - intros ci st' HI HF' (T' & HT'). apply (Hfin ci st'); [assumption|assumption|].
      destruct Wv as [W1 W2 W3 W4 W5 W6 W7]. constructor; cbn [with_var_cid va_span_size va_chunk_size]; auto.
      + constructor; cbn [with_var_cid va_name va_round va_span_size va_chunk_size va_levels va_cid]; auto. apply HT'.
      + right. split; [exact Hodd|]. exists T'. exact HT'.
  Qed.

  (** *** Events *)
  Notation event_ok := (event_ok C S).

  Lemma keeps_event d e st : functional st -> usable st d -> event_ok e -> event_fits N st d e ->
    keeps (run_event hash lc lg order fuel d e) st (fun d' st' => usable st' d').
  Proof.
    intros HF Hd HE HB. pose proof (next_prev_there st d Hd) as Hnp. pose proof Hd as [Sd Cd]. pose proof Sd as [D1 D2 D3 D4 D5 D6].
    destruct e as [c|t name data| |]; cbn [run_event SessionSpec.event_ok event_fits] in *.
    - destruct HE as (E1 & E2 & E4 & E5 & E6 & E7 & E8).
      assert (Fr : fits32 (ds_rows d)) by (apply side_fits; exact D1). assert (Fc : fits32 (ds_cols d)) by (apply side_fits; exact D2).
      set (post := fun d' st' => exists ci, d' = mkDataset (ds_coords d) (ds_vars d ++ [mkVar (cf_name c) (cf_round c) (cf_span c) (cf_chunk c) (cf_levels c) (enc_of (cf_type c)) ci])
        (ds_rows d) (ds_cols d) None (next_prev d) /\
        sound_var (ds_rows d) (ds_cols d) st' (mkVar (cf_name c) (cf_round c) (cf_span c) (cf_chunk c) (cf_levels c) (enc_of (cf_type c)) ci)).
      assert (MA : mono (add_variable hash d (cf_name c) (cf_round c) (cf_span c) (cf_chunk c) (cf_levels c) (enc_of (cf_type c)))).
      { unfold add_variable. apply mono_bind; [apply mono_save|intros; apply mono_ret]. }
      assert (HP : keeps (add_variable hash d (cf_name c) (cf_round c) (cf_span c) (cf_chunk c) (cf_levels c) (enc_of (cf_type c))) st post).
      { assert (Hcase : (2 <= cf_span c /\ 1 <= cf_chunk c) \/ (cf_span c <= 1 \/ cf_chunk c = 0)) by (clear; lia).
        destruct Hcase as [[G1 G2]|G].
        - eapply keeps_post; [exact MA| |].
          + apply ok_keeps. apply (ok_add hash (ds_rows d) (ds_cols d) (cf_chunk c) (cf_span c) (cf_levels c) (enc_of (cf_type c)) (cf_round c) Hhash G2 Fr Fc E6
              (fun (_ : nat -> nat -> nat -> Z) _ _ _ => True) (fun _ _ _ => 0%Z) d (cf_name c) st eq_refl eq_refl).
          + intros d' st' HI HF' (ci & -> & HT). exists ci. split; [reflexivity|]. constructor; cbn [va_span_size va_chunk_size]; auto.
            * constructor; cbn [va_name va_round va_span_size va_chunk_size va_levels va_cid]; auto. apply HT.
            * left. split; [exact G1|]. split; [exact G2|]. exists 0, 0. split; [apply Nat.le_0_l|exact HT].
        - unfold add_variable.
          eapply (keeps_bind _ _ _ (fun ci st' => wf_cid ci /\ get_mm st' ci = Ok (MSpan (span_new (ds_rows d) (ds_cols d) (cf_chunk c) (enc_of (cf_type c))))));
            [apply mono_save|intros; apply mono_ret| |].
          + apply ok_keeps, ok_save; [apply (flat_new (ds_rows d) (ds_cols d) (cf_chunk c) (cf_span c) Fr Fc E6 st (enc_of (cf_type c)))|exact Hhash|auto].
          + intros ci st' HI HF' [W Gm]. apply keeps_ret. exists ci. split; [reflexivity|]. constructor; cbn [va_span_size va_chunk_size]; auto.
            * constructor; cbn [va_name va_round va_span_size va_chunk_size va_levels va_cid]; auto.
            * right. split; [exact G|]. exists 0. split; [exact W|]. eexists. split; [exact Gm|]. apply flat_new; assumption. }
      eapply keeps_post; [exact MA|exact HP|].
      intros d' st' HI HF' (ci & -> & Hnew). split; [|exact I]. constructor; cbn [ds_rows ds_cols ds_coords ds_vars ds_prev]; auto.
      + rewrite app_length. cbn [length]. clear -HB; lia.
      + apply Forall_app. split; [eapply Forall_impl; [|exact D5]; intros v Hv; eapply sound_var_incl; [exact HI|exact HF'|exact Hv]|].
        constructor; [exact Hnew|constructor].
      + eapply there_incl; [exact HI|exact Hnp].
    - apply (keeps_append t d name data (instants3 data) st HF Sd Cd HE eq_refl HB).
    - pose proof (sound_anchored st d Sd) as Ad.
      eapply (keeps_bind _ _ _ (fun _ _ => True)); [apply mono_save|intros; apply mono_ret| |].
      + intros _. split; [exact (grown_save hash st (NDataset d) Ad)|]. intros; exact I.
      + intros ci st' HI HF' _. apply keeps_ret. eapply usable_incl; [exact HI|exact HF'|exact Hd].
    - pose proof (sound_anchored st d Sd) as Ad.
      eapply (keeps_bind _ _ _ (fun ci st' => get_dataset st' ci = Ok (with_cid d (Some ci)) /\ wf_cid ci /\ has st' ci)); [apply mono_save|intros ci st'; apply extends_refl| |].
      + intros HF'. split; [exact (grown_save hash st (NDataset d) Ad)|]. intros ci Ei. unfold dataset_commit, osave, save in *. cbn [fst snd] in *. injection Ei as <-.
        split; [|split; [apply Hhash|eexists; apply in_or_app; right; left; reflexivity]].
        unfold get_dataset. rewrite (retrieve_saved _ hash (NDataset d) (proj1 (proj1 Ad)) HF' (save_in hash st (NDataset d))). reflexivity.
      + intros ci st' HI HF' (Eg & Wc & Hci) _. cbn [fst snd]. split; [apply grown_refl|]. intros d' Ed. rewrite Eg in Ed. injection Ed as <-.
        split; [|split; assumption]. eapply (sound_incl st st') in Sd; [|exact HI|exact HF']. destruct Sd as [X1 X2 X3 X4 X5 X6]. constructor; assumption.
  Qed.

  (** ** Sessions *)
  Notation action_ok := (action_ok C S).

  (** Every dataset in the store is sound in what was stored before it. *)
  Definition stored (st : store) : Prop := forall i c b d r, nth_error st i = Some (c, b) ->
    node_read c b = Ok (NDataset d, r) -> wf_cid c /\ sound (firstn i st) d.
  Record good (x : session) : Prop := {
    gd_laid : laid (se_store x); gd_ever : incl (se_store x) (se_ever x); gd_stored : stored (se_store x);
    gd_open : Forall (usable (se_store x)) (se_open x) }.

  Lemma stored_app st l : stored st -> (forall j c b d r, nth_error l j = Some (c, b) -> node_read c b = Ok (NDataset d, r) ->
    wf_cid c /\ sound (st ++ firstn j l) d) -> stored (st ++ l).
  Proof.
    intros H1 H2 i c b d r Hi Hr. destruct (Nat.lt_ge_cases i (length st)) as [L|L].
    - rewrite nth_error_app1 in Hi by exact L. rewrite firstn_app. replace (i - length st) with 0 by (clear -L; lia). rewrite app_nil_r. apply (H1 i c b d r Hi Hr).
    - rewrite nth_error_app2 in Hi by exact L. rewrite firstn_app, firstn_all2 by exact L. apply (H2 _ c b d r Hi Hr).
  Qed.
  Lemma stored_quiet st st' : quietly st st' -> stored st -> stored st'.
  Proof.
    intros (l & -> & F) H. apply stored_app; [exact H|]. intros j c b d r Hj Hr. exfalso. rewrite Forall_forall in F.
    destruct (F (c, b) (nth_error_In _ _ Hj)) as (n & En & Hn). cbn [snd] in En. subst b. exact (not_dataset_read n c d r Hn Hr).
  Qed.

  Lemma stored_event d e st : usable st d -> stored st -> stored (fst (run_event hash lc lg order fuel d e st)).
  Proof.
    intros [Sd _] H. 
    assert (HCm : stored (snd (save hash st (NDataset d)))).
    { unfold save. cbn [snd]. apply stored_app; [exact H|]. intros j c b d' r Hj Hr. destruct j as [|j]; [|destruct j; discriminate]. injection Hj as <- <-.
      split; [apply Hhash|]. cbn [firstn]. rewrite app_nil_r.
      destruct (node_reads (hash (node_bytes (NDataset d))) (NDataset d) [] (proj1 (proj1 (sound_anchored st d Sd)))) as (r' & Er). rewrite app_nil_r in Er.
      rewrite Er in Hr. injection Hr as <- _. destruct Sd as [X1 X2 X3 X4 X5 X6]. constructor; assumption. }
    destruct e as [c|t name data| |]; cbn [run_event].
    - eapply stored_quiet; [apply quiet_add|exact H].
    - eapply stored_quiet; [apply quiet_append|exact H].
    - exact HCm.
    - unfold obind, dataset_commit, osave. unfold save in *. cbn [fst snd] in *. exact HCm.
  Qed.

  Lemma ever_action x a : incl (se_ever x) (se_ever (run_action hash lc lg order fuel x a)).
  Proof.
    destruct a as [co r c|c|i e|n]; cbn [run_action]; try apply incl_refl.
    - destruct (get_dataset _ c); apply incl_refl.
    - destruct (nth_error _ i) as [d|]; [|apply incl_refl]. destruct (run_event _ _ _ _ _ _ _ _) as [st r]. apply incl_appl, incl_refl.
  Qed.
  Lemma ever_session : forall l x, incl (se_ever x) (se_ever (run_session hash lc lg order fuel x l)).
  Proof.
    induction l as [|a l IH]; intros x; [apply incl_refl|]. unfold run_session. cbn [fold_left]. eapply incl_tran; [apply (ever_action x a)|apply IH].
  Qed.

  Lemma good_action x a : functional (se_ever (run_action hash lc lg order fuel x a)) -> action_ok a -> action_fits N x a -> good x ->
    good (run_action hash lc lg order fuel x a).
  Proof.
    intros HF HA HB [G1 G2 G3 G4].
    assert (Fx : functional (se_store x)) by (eapply functional_incl; [eapply incl_tran; [exact G2|apply (ever_action x a)]|exact HF]).
    destruct a as [co r c|c|i e|n]; cbn [run_action action_ok action_fits] in *.
    - constructor; cbn [se_store se_ever se_open]; auto. apply Forall_app. split; [exact G4|]. constructor; [|constructor].
      destruct HA as (H1 & H2 & H3). split; [|exact I]. constructor; cbn [dataset_new ds_rows ds_cols ds_coords ds_vars ds_prev]; auto; try apply Nat.le_0_l; try constructor; try exact I.
    - destruct (get_dataset (se_store x) c) as [d| | |] eqn:Eg; try (constructor; assumption).
      constructor; cbn [se_store se_ever se_open]; auto. apply Forall_app. split; [exact G4|]. constructor; [|constructor].
      unfold get_dataset, retrieve in Eg. destruct (store_get (se_store x) c) as [b|] eqn:Eb; [|discriminate]. apply store_get_some in Eb.
      cbn [bind] in Eg. destruct (node_read c b) as [[nd r]| | |] eqn:Er; try discriminate. cbn [bind fst] in Eg. destruct nd as [d'| |]; try discriminate. injection Eg as ->.
      apply In_nth_error in Eb. destruct Eb as (j & Hj). destruct (G3 j c b d r Hj Er) as [W Hs].
      assert (Ec : ds_cid d = Some c).
      { clear -Er. unfold node_read, rbind in Er. apply bind_inv in Er. destruct Er as (t & _ & Er). destruct (_ =? _)%N in Er.
        - apply bind_inv in Er. destruct Er as (y & _ & Er). unfold rret in Er. injection Er as <- _. reflexivity.
        - destruct (_ =? _)%N in Er; [apply bind_inv in Er; destruct Er as (y & _ & Er); discriminate|].
          destruct (_ =? _)%N in Er; [apply bind_inv in Er; destruct Er as (y & _ & Er); discriminate|discriminate]. }
      split.
      + eapply sound_incl; [|exact Fx|exact Hs]. intros p Hp. rewrite <- (firstn_skipn j (se_store x)). apply in_or_app. left. exact Hp.
      + rewrite Ec. split; [exact W|]. exists b. eapply nth_error_In, Hj.
    - destruct (nth_error (se_open x) i) as [d|] eqn:Ei.
      + pose proof (proj1 (Forall_forall _ _) G4 d (nth_error_In _ _ Ei)) as Ud.
        pose proof (mono_event hash lc lg order fuel d e (se_store x)) as (l & El).
        pose proof (stored_event d e (se_store x) Ud G3) as HSt.
        pose proof (keeps_event d e (se_store x) Fx Ud HA (HB d eq_refl)) as HK. unfold keeps in HK.
        destruct (run_event hash lc lg order fuel d e (se_store x)) as [st r]. cbn [fst snd se_store se_ever se_open] in *. subst st.
        rewrite skipn_app, skipn_all, Nat.sub_diag in HF |- *. cbn [skipn app] in HF |- *.
        assert (HE : incl (se_store x ++ l) (se_ever x ++ l)).
        { intros p Hp. apply in_app_or in Hp. apply in_or_app. destruct Hp as [Hp|Hp]; [left; apply G2, Hp|right; exact Hp]. }
        assert (Fs : functional (se_store x ++ l)) by (eapply functional_incl; [exact HE|exact HF]).
        destruct (HK Fs) as [HG HP]. constructor; cbn [se_store se_ever se_open].
        * apply HG. exact G1.
        * exact HE.
        * exact HSt.
        * assert (G4' : Forall (usable (se_store x ++ l)) (se_open x)).
          { eapply Forall_impl; [|exact G4]. intros y Hy. eapply usable_incl; [apply incl_appl, incl_refl|exact Fs|exact Hy]. }
          destruct r as [d'| | |]; try exact G4'. apply Forall_app. split; [exact G4'|]. constructor; [|constructor]. apply HP. reflexivity.
      + constructor; auto.
    - constructor; cbn [se_store se_ever se_open].
      + apply laid_prefix. exact G1.
      + eapply incl_tran; [|exact G2]. intros p Hp. rewrite <- (firstn_skipn n (se_store x)). apply in_or_app. left. exact Hp.
      + intros i c b d r Hi Hr. assert (L : i < n).
        { assert (i < length (firstn n (se_store x))) by (apply nth_error_Some; congruence). rewrite firstn_length in H. clear -H; lia. }
        rewrite firstn_firstn. replace (Nat.min i n) with i by (clear -L; lia). apply (G3 i c b d r); [|exact Hr].
        rewrite nth_error_firstn_lt in Hi by exact L. exact Hi.
      + constructor.
  Qed.

  Lemma good_session : forall l x, functional (se_ever (run_session hash lc lg order fuel x l)) -> Forall action_ok l ->
    all_fit N hash lc lg order fuel x l -> good x -> good (run_session hash lc lg order fuel x l).
  Proof.
    induction l as [|a l IH]; intros x HF HA HB HG; [exact HG|].
    inversion_clear HA as [|? ? Ha HA']. destruct HB as [Hb HB]. unfold run_session in *. cbn [fold_left] in *. apply IH; auto. apply good_action; auto.
    eapply functional_incl; [|exact HF]. apply (ever_session l).
  Qed.
  Lemma good_start : good session_start.
  Proof. constructor; cbn [session_start se_store se_ever se_open]; [intros i p H; destruct i; discriminate|apply incl_refl|intros i c b d r H; destruct i; discriminate|constructor]. Qed.
End Sound.
