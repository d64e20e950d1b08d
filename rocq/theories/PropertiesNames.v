(** * Property C39: exactly which variables can be reached

    C39_same_name_refuted (PropertiesDataset.v) shows a dataset with a variable that cannot
    be reached by its name. Here: which variables can be, for every dataset, and that the
    others stay as they were created whatever is done afterwards. *)
From Verif Require Import Base BaseFacts FixedModel GeomModel BitmapModel DacModel StreamModel StreamProofs ChunkModel ChunkStream NodeModel NodeProofs SuperModel
  ArrayModel FloatModel DatasetModel HistoryModel DatasetProofs AppendProofs HistoryProofs PropertiesNode PropertiesDataset PropertiesUnusable.
Open Scope nat_scope.

Lemma first_found name l : forall v, find_var name l = Some v <->
  exists before after, l = before ++ v :: after /\ va_name v = name /\ ~ In name (map va_name before).
Proof.
  induction l as [|x l IH]; intros v; unfold find_var; cbn [find].
  { split; [discriminate|]. intros ([|? ?] & ? & H & _); discriminate. }
  destruct (bytes_eqb (va_name x) name) eqn:E.
  - apply bytes_eqb_spec in E. split.
    + intros H. injection H as <-. exists [], l. cbn. auto.
    + intros ([|y before] & after & H & N & NI); [injection H as -> _; reflexivity|]. injection H as <- _. destruct NI. left. exact E.
  - fold (find_var name l). rewrite IH. assert (NX : va_name x <> name) by (intros H; rewrite H, (proj2 (bytes_eqb_spec _ _) eq_refl) in E; discriminate). split.
    + intros (before & after & -> & N & NI). exists (x :: before), after. split; [reflexivity|]. split; [exact N|]. intros [H|H]; [exact (NX H)|exact (NI H)].
    + intros ([|y before] & after & H & N & NI).
      * injection H as -> _. destruct (NX N).
      * injection H as -> ->. exists before, after. split; [reflexivity|]. split; [exact N|]. intros H. apply NI. right. exact H.
Qed.

(** ** C39: a name reaches the first variable that has it, and no other *)
Theorem C39_exactly_when : forall d name v, find_var name (ds_vars d) = Some v <->
  exists before after, ds_vars d = before ++ v :: after /\ va_name v = name /\ ~ In name (map va_name before).
Proof. intros d name v. apply first_found. Qed.

Lemma replace_names v' l : map va_name (replace_var v' l) = map va_name l.
Proof.
  induction l as [|x l IH]; [reflexivity|]. cbn [replace_var]. destruct (bytes_eqb (va_name x) (va_name v')) eqn:E; cbn [map]; [|congruence].
  apply bytes_eqb_spec in E. congruence.
Qed.
Lemma replace_later v' : forall l n v, nth_error l n = Some v -> In (va_name v) (map va_name (firstn n l)) -> nth_error (replace_var v' l) n = Some v.
Proof.
  induction l as [|x l IH]; intros [|n] v E H; try discriminate; [destruct H|]. cbn [nth_error] in E. cbn [firstn map] in H. cbn [replace_var].
  destruct (bytes_eqb (va_name x) (va_name v')) eqn:Ex; cbn [nth_error]; [exact E|]. destruct H as [H|H]; [|apply IH; assumption].
  (* the first of that name is another than the one replaced *)
  assert (NV : va_name v <> va_name v') by (intros C; rewrite H, C, (proj2 (bytes_eqb_spec _ _) eq_refl) in Ex; discriminate).
  clear -E NV. revert n E. induction l as [|y l IH]; intros [|n] E; try discriminate; cbn [replace_var nth_error] in *.
  - injection E as ->. destruct (bytes_eqb (va_name v) (va_name v')) eqn:Ey; [apply bytes_eqb_spec in Ey; destruct (NV Ey)|reflexivity].
  - destruct (bytes_eqb (va_name y) (va_name v')); [exact E|apply IH; exact E].
Qed.
Lemma firstn_names (l l' : list variable) n : map va_name l = map va_name l' -> map va_name (firstn n l) = map va_name (firstn n l').
Proof. intros H. rewrite <- !firstn_map. congruence. Qed.

(** What is loaded again has the same variables. *)
Lemma reload_vars hash d st st' d' : wf_dataset d -> functional st' ->
  obind (DatasetModel.dataset_commit hash d) (fun c st => (st, get_dataset st c)) st = (st', Ok d') -> ds_vars d' = ds_vars d.
Proof.
  intros W F H. apply step_inv in H. destruct H as (c & st1 & Ec & H). injection H as -> H.
  unfold DatasetModel.dataset_commit, osave in Ec. pose proof (save_in hash st (NDataset d)) as HI.
  destruct (save hash st (NDataset d)) as [c0 s0] eqn:E. injection Ec as -> ->.
  assert (c = hash (node_bytes (NDataset d))) as -> by (unfold save in E; congruence). cbn [snd] in HI.
  unfold get_dataset in H. rewrite (retrieve_saved st' hash (NDataset d) W F HI) in H. cbn in H. injection H as <-. reflexivity.
Qed.

(** ** C39: the others are out of reach for good

    Where the dataset is loaded again, its numbers are to fit their fields ([wf_dataset], as in C27). *)
Theorem C39_hidden_refuted : forall hash lc lg order fuel d st c st1 d1 es st2 d2,
  In (cf_name c) (map va_name (ds_vars d)) ->
  run_event hash lc lg order fuel d (Add c) st = (st1, Ok d1) ->
  run hash lc lg order fuel d1 es st1 = (st2, Ok d2) -> functional st2 ->
  (forall before after st' d', es = before ++ Reload :: after -> run hash lc lg order fuel d1 before st1 = (st', Ok d') -> wf_dataset d') ->
  exists v, ds_vars d1 = ds_vars d ++ [v] /\ va_name v = cf_name c /\
    nth_error (ds_vars d2) (length (ds_vars d)) = Some v /\
    exists i w, i < length (ds_vars d) /\ nth_error (ds_vars d2) i = Some w /\ find_var (cf_name c) (ds_vars d2) = Some w.
Proof.
  intros hash lc lg order fuel d st c st1 d1 es st2 d2 Hin HA HE HF HR. cbn [run_event] in HA. unfold add_variable in HA.
  apply step_inv in HA. destruct HA as (c1 & st1' & _ & HA). apply ret_inv in HA. destruct HA as (<- & ->).
  set (v := mkVar (cf_name c) (cf_round c) (cf_span c) (cf_chunk c) (cf_levels c) (enc_of (cf_type c)) c1).
  exists v. split; [reflexivity|]. split; [reflexivity|]. set (n := length (ds_vars d)).
  assert (K : forall es d1 st1,
    (forall before after st' d', es = before ++ Reload :: after -> run hash lc lg order fuel d1 before st1 = (st', Ok d') -> wf_dataset d') -> nth_error (ds_vars d1) n = Some v -> In (cf_name c) (map va_name (firstn n (ds_vars d1))) ->
    run hash lc lg order fuel d1 es st1 = (st2, Ok d2) -> nth_error (ds_vars d2) n = Some v /\ In (cf_name c) (map va_name (firstn n (ds_vars d2)))).
  { clear -v HF. induction es as [|e es IH]; intros d1 st1 HR Hn Hi H.
    - cbn in H. apply ret_inv in H. destruct H as (<- & _). auto.
    - unfold run in H. cbn [ofold] in H. apply step_inv in H. destruct H as (d1' & st1' & He & H).
      assert (HR' : forall before after st' d', es = before ++ Reload :: after -> run hash lc lg order fuel d1' before st1' = (st', Ok d') -> wf_dataset d').
      { intros before after st' d' -> Hb. apply (HR (e :: before) after st' d' eq_refl). unfold run. cbn [ofold]. unfold obind. rewrite He. exact Hb. }
      assert (HV : e = Reload -> ds_vars d1' = ds_vars d1).
      { intros ->. apply (reload_vars hash d1 st1 st1' d1'); [apply (HR [] es st1 d1 eq_refl); reflexivity| |exact He].
        eapply functional_incl; [|exact HF]. pose proof (mono_run hash lc lg order fuel d1' es) as M. exact (after _ _ _ _ M H). }
      refine (IH d1' st1' HR' _ _ H); (destruct e as [c'|t name data| |]; [| | |rewrite (HV eq_refl); assumption]); clear HV; cbn [run_event] in He.
      + unfold add_variable in He. apply step_inv in He. destruct He as (c2 & st3 & _ & He). apply ret_inv in He. destruct He as (<- & _). cbn [ds_vars].
        rewrite nth_error_app1; [exact Hn|]. apply nth_error_Some. congruence.
      + unfold dataset_append in He. destruct (find_var name (ds_vars d1)) as [w|]; [|apply lift_inv in He; destruct He; discriminate].
        apply step_inv in He. destruct He as (x & st3 & _ & He). apply step_inv in He. destruct He as (c2 & st4 & _ & He). apply ret_inv in He. destruct He as (<- & _). cbn [ds_vars].
        apply replace_later; [exact Hn|exact Hi].
      + apply step_inv in He. destruct He as (c2 & st3 & _ & He). apply ret_inv in He. destruct He as (<- & _). exact Hn.
      + unfold add_variable in He. apply step_inv in He. destruct He as (c2 & st3 & _ & He). apply ret_inv in He. destruct He as (<- & _). cbn [ds_vars].
        assert (L : n < length (ds_vars d1)) by (apply nth_error_Some; congruence).
        rewrite firstn_app. replace (n - length (ds_vars d1)) with 0 by lia. rewrite firstn_O, app_nil_r. exact Hi.
      + unfold dataset_append in He. destruct (find_var name (ds_vars d1)) as [w|]; [|apply lift_inv in He; destruct He; discriminate].
        apply step_inv in He. destruct He as (x & st3 & _ & He). apply step_inv in He. destruct He as (c2 & st4 & _ & He). apply ret_inv in He. destruct He as (<- & _). cbn [ds_vars].
        rewrite (firstn_names _ (ds_vars d1) n (replace_names _ _)). exact Hi.
      + apply step_inv in He. destruct He as (c2 & st3 & _ & He). apply ret_inv in He. destruct He as (<- & _). exact Hi. }
  assert (A1 : nth_error (ds_vars d ++ [v]) n = Some v) by (rewrite nth_error_app2 by (unfold n; lia); unfold n; rewrite Nat.sub_diag; reflexivity).
  assert (A2 : In (cf_name c) (map va_name (firstn n (ds_vars d ++ [v])))) by (unfold n; rewrite firstn_app, Nat.sub_diag, firstn_O, app_nil_r, firstn_all; exact Hin).
  destruct (K es (mkDataset (ds_coords d) (ds_vars d ++ [v]) (ds_rows d) (ds_cols d) None (next_prev d)) _ HR A1 A2 HE) as (K1 & K2).
  split; [exact K1|]. destruct (find_var (cf_name c) (firstn n (ds_vars d2))) as [w|] eqn:Ew.
  - pose proof Ew as Ew'. apply first_found in Ew'. destruct Ew' as (before & after & Eb & Nw & NI).
    exists (length before), w. assert (LB : length before < n).
    { assert (LL : length (firstn n (ds_vars d2)) <= n) by (rewrite firstn_length; lia). rewrite Eb, app_length in LL. cbn [length] in LL. lia. }
    split; [exact LB|]. assert (E2 : ds_vars d2 = before ++ w :: (after ++ skipn n (ds_vars d2))).
    { rewrite <- (firstn_skipn n (ds_vars d2)) at 1. rewrite Eb, <- app_assoc. reflexivity. }
    split; [rewrite E2, nth_error_app2, Nat.sub_diag by lia; reflexivity|]. apply first_found. exists before, (after ++ skipn n (ds_vars d2)). auto.
  - exfalso. clear -K2 Ew. revert K2 Ew. generalize (firstn n (ds_vars d2)). intros l. unfold find_var. induction l as [|x l IH]; intros H E; [destruct H|].
    cbn [find] in E. destruct (bytes_eqb (va_name x) (cf_name c)) eqn:Ex; [discriminate|]. destruct H as [H|H]; [|exact (IH H E)].
    rewrite H, (proj2 (bytes_eqb_spec _ _) eq_refl) in Ex. discriminate.
Qed.

(** A variable of 64-bit integers under a name that is in use, then data for that name, and the
    dataset is loaded again: the data go to the variable of 32-bit integers, the new one stays empty. *)
Definition ex_later : list event := [Append I32 [97]%N (ex_data 1 1 5 6); Reload; Commit].
Example C39_hidden_example : exists st1 d1 st2 d2 st3 d3 v, run ex_hash ex_lc ex_lg (@rev call) 4 (dataset_new ex_coords 5 6) [Add ex_a] [] = (st1, Ok d1) /\
  In [97]%N (map va_name (ds_vars d1)) /\ run_event ex_hash ex_lc ex_lg (@rev call) 4 d1 (Add (mkConfig [97]%N None 7 5 [3] I64)) st1 = (st2, Ok d2) /\
  run ex_hash ex_lc ex_lg (@rev call) 4 d2 ex_later st2 = (st3, Ok d3) /\ functional st3 /\
  (forall before after st' d', ex_later = before ++ Reload :: after -> run ex_hash ex_lc ex_lg (@rev call) 4 d2 before st2 = (st', Ok d') -> wf_dataset d') /\
  nth_error (ds_vars d2) 0 = Some v /\ nth_error (ds_vars d3) 0 <> Some v /\ nth_error (ds_vars d3) 1 = nth_error (ds_vars d2) 1.
Proof.
  do 7 eexists. split; [vm_compute; reflexivity|]. split; [left; reflexivity|]. split; [vm_compute; reflexivity|]. split; [vm_compute; reflexivity|].
  split; [apply functional_checked; vm_compute; reflexivity|].
  split; [|split; [reflexivity|]; split; [vm_compute; discriminate|reflexivity]].
  intros before after st' d' Eb H. unfold ex_later in Eb.
  destruct before as [|e [|e' [|e2 [|e3 before]]]]; cbn [app] in Eb; try discriminate.
  injection Eb as <- _. vm_compute in H. injection H as _ <-. destruct wf_ex_dataset as [W _ _ _ _ _].
  constructor; cbn [ds_coords ds_vars ds_rows ds_cols ds_prev length]; [exact W|reflexivity| |reflexivity|reflexivity|exact Logic.I].
  repeat constructor; cbn; unfold fits8, fits32; try lia; try reflexivity.
Qed.

Print Assumptions C39_exactly_when.
Print Assumptions C39_hidden_refuted.
