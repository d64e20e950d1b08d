(** * Property C42: what a listing reaches is all that reading needs. *)
From Coq Require Import ZArith.
From Verif Require Import Base BaseFacts GeomModel GeomProofs BitmapModel DacModel StreamModel StreamProofs ChunkModel
  NodeModel NodeProofs SuperModel ArrayModel ArrayProofs FloatModel DatasetModel DatasetProofs HistoryModel
  KindProofs HistoryProofs.
From Verif Require SnapshotModel PropertiesNode PropertiesDataset.
Import PropertiesNode PropertiesDataset.
Arguments Nat.pow : simpl never.
Open Scope nat_scope.

(** ** Copying a dataset *)

(** The identifiers met by listing [root], then listing everything listed, and so on. *)
Inductive reached (st : store) (root : cid) : cid -> Prop :=
| reached_root : reached st root root
| reached_entry c entries e : reached st root c -> resolver_ls st c = Ok entries -> In e entries -> reached st root (le_cid e).

(** The listing goes through: every object met that loads can be listed, and none holds
    parts of a superchunk within itself, which are not listed. Objects that are missing or
    do not load may be met. *)
Definition walkable (st : store) (root : cid) : Prop :=
  forall c n, reached st root c -> retrieve st c = Ok n -> no_local n /\ exists entries, resolver_ls st c = Ok entries.

(** In [st'] there is the same as in [st] under every identifier met. *)
Definition copied (st st' : store) (root : cid) : Prop :=
  forall c, reached st root c -> store_get st' c = store_get st c.

(** ** Proofs *)
Lemma bind_ext {A B} (x y : res A) (f g : A -> res B) : x = y -> (forall a, x = Ok a -> f a = g a) -> bind x f = bind y g.
Proof. intros <- H. destruct x; cbn [bind]; auto. Qed.
Lemma flat_mapM_ext {A B} (f g : A -> res (list B)) l : (forall x, f x = g x) -> flat_mapM f l = flat_mapM g l.
Proof. intros H. induction l as [|a l IH]; cbn [flat_mapM]; [reflexivity|]. rewrite H, IH. reflexivity. Qed.
Lemma mapM_inv {A B} (f : A -> res B) l : forall out, mapM f l = Ok out -> forall x, In x l -> exists y, f x = Ok y /\ In y out.
Proof.
  induction l as [|a l IH]; intros out H x Hx; [destruct Hx|]. cbn [mapM] in H. apply bind_inv in H. destruct H as (y & Ey & H).
  apply bind_inv in H. destruct H as (ys & Eys & H). injection H as <-. destruct Hx as [->|Hx].
  - exists y. split; [exact Ey|left; reflexivity].
  - destruct (IH ys Eys x Hx) as (z & Ez & Hz). exists z. split; [exact Ez|right; exact Hz].
Qed.
Lemma nth_res_In {A} (l : list A) i x : nth_res l i = Ok x -> In x l.
Proof. unfold nth_res. destruct (nth_error l i) as [y|] eqn:E; [|discriminate]. intros H. injection H as <-. eapply nth_error_In; exact E. Qed.

Section Copy.
  Variables (st st' : store) (root : cid).
  Hypothesis HW : walkable st root.
  Hypothesis HC : copied st st' root.
  Let reach := reached st root.

  Lemma retrieve_copied c : reach c -> retrieve st' c = retrieve st c.
  Proof. intros H. unfold retrieve. rewrite (HC c H). reflexivity. Qed.
  Lemma get_mm_copied c : reach c -> get_mm st' c = get_mm st c.
  Proof. intros H. unfold get_mm. rewrite (retrieve_copied c H). reflexivity. Qed.
  Lemma get_links_copied c : reach c -> get_links st' c = get_links st c.
  Proof. intros H. unfold get_links. rewrite (retrieve_copied c H). reflexivity. Qed.
  Lemma get_dataset_copied c : reach c -> get_dataset st' c = get_dataset st c.
  Proof. intros H. unfold get_dataset. rewrite (retrieve_copied c H). reflexivity. Qed.
  (** What a loaded object names is reached. *)
  Lemma named_reached c n name x : reach c -> retrieve st c = Ok n -> In (name, x) (node_ls n) -> reach x.
  Proof.
    intros H R Hx. destruct (HW c n H R) as (_ & entries & E). pose proof E as E0. unfold resolver_ls in E. rewrite R in E. cbn [bind] in E.
    destruct (mapM_inv _ _ _ E _ Hx) as (e & Ee & He). apply bind_inv in Ee. destruct Ee as (t & _ & Ee). injection Ee as <-.
    change x with (le_cid (mkEntry (snd (name, x)) (fst (name, x)) t (option_map (@length N) (store_get st (snd (name, x)))))).
    eapply reached_entry; [exact H|exact E0|exact He].
  Qed.
  Lemma listing_copied c : reach c -> resolver_ls st' c = resolver_ls st c.
  Proof.
    intros H. unfold resolver_ls. rewrite (retrieve_copied c H). apply bind_ext; [reflexivity|]. intros n R. apply mapM_ext.
    intros [name x] Hp. pose proof (HC x (named_reached c n name x H R Hp)) as E. cbn [fst snd]. unfold node_type_of. rewrite E. reflexivity.
  Qed.

  (** Everything an array names is reached. *)
  Definition covered (m : mmstruct) : Prop :=
    match m with
    | MSpan s => forall c, In c (sp_spans s) -> reach c
    | MSub _ => True
    | MSuper s local => local = [] /\ reach (su_external s)
    end.
  Lemma loaded_covered c m : reach c -> get_mm st c = Ok m -> covered m.
  Proof.
    intros H E. unfold get_mm in E. apply bind_inv in E. destruct E as (n & R & E). destruct n as [d|l|m']; try discriminate. injection E as ->.
    destruct (HW c _ H R) as (NL & _). destruct m as [s|ch|s local]; cbn [covered].
    - intros x Hx. destruct (In_nth_error _ _ Hx) as (i & Hi). eapply named_reached; [exact H|exact R|]. apply in_node_ls; [exact NL|]. constructor. exact Hi.
    - exact I.
    - cbn [no_local] in NL. subst local. split; [reflexivity|]. eapply named_reached; [exact H|exact R|]. left. reflexivity.
  Qed.
  Lemma links_reached c l x : reach c -> get_links st c = Ok l -> In x l -> reach x.
  Proof.
    intros H E Hx. unfold get_links in E. apply bind_inv in E. destruct E as (n & R & E). destruct n as [d|l'|m']; try discriminate. injection E as ->.
    destruct (In_nth_error _ _ Hx) as (i & Hi). eapply named_reached; [exact H|exact R|]. apply in_node_ls; [exact I|]. constructor. exact Hi.
  Qed.
  Lemma external_copied s i : reach (su_external s) -> super_external st' s i = super_external st s i.
  Proof.
    intros H. unfold super_external. rewrite (get_links_copied _ H). apply bind_ext; [reflexivity|]. intros l El.
    apply bind_ext; [reflexivity|]. intros c Ec. apply get_mm_copied. eapply links_reached; [exact H|exact El|]. eapply nth_res_In; exact Ec.
  Qed.
  Lemma external_covered s i m : reach (su_external s) -> super_external st s i = Ok m -> covered m.
  Proof.
    intros H E. unfold super_external in E. apply bind_inv in E. destruct E as (l & El & E). apply bind_inv in E. destruct E as (c & Ec & E).
    eapply loaded_covered; [|exact E]. eapply links_reached; [exact H|exact El|]. eapply nth_res_In; exact Ec.
  Qed.

  Lemma mm_get_copied : forall fuel m t r k bits, covered m -> mm_get st' fuel m t r k bits = mm_get st fuel m t r k bits.
  Proof.
    induction fuel as [|fuel IH]; intros m t r k bits Hm; [reflexivity|]. cbn [mm_get]. destruct m as [s|ch|s local].
    - apply bind_ext; [reflexivity|]. intros x _. apply bind_ext; [reflexivity|]. intros c Hc. apply nth_res_In, Hm in Hc.
      apply bind_ext; [apply get_mm_copied, Hc|]. intros m' E. apply IH. rewrite (get_mm_copied c Hc) in E. eapply loaded_covered; eassumption.
    - reflexivity.
    - destruct Hm as [-> Hm]. do 5 (apply bind_ext; [reflexivity|]; intros ? _). destruct a3 as [|i|i].
      + reflexivity.
      + apply bind_ext; [reflexivity|]. intros m' E. apply nth_res_In in E. destruct E.
      + apply bind_ext; [apply external_copied, Hm|]. intros m' E. rewrite (external_copied s i Hm) in E. apply IH. eapply external_covered; eassumption.
  Qed.
  Lemma mm_fill_cell_copied : forall fuel m b e r k bits, covered m -> mm_fill_cell st' fuel m b e r k bits = mm_fill_cell st fuel m b e r k bits.
  Proof.
    induction fuel as [|fuel IH]; intros m b e r k bits Hm; [reflexivity|]. cbn [mm_fill_cell]. destruct m as [s|ch|s local].
    - do 2 (apply bind_ext; [reflexivity|]; intros ? _). apply flat_mapM_ext. intros [[[sp i] len] off].
      apply bind_ext; [reflexivity|]. intros c Hc. apply nth_res_In, Hm in Hc.
      apply bind_ext; [apply get_mm_copied, Hc|]. intros m' E. rewrite (get_mm_copied c Hc) in E. rewrite IH; [reflexivity|]. eapply loaded_covered; eassumption.
    - reflexivity.
    - destruct Hm as [-> Hm]. do 5 (apply bind_ext; [reflexivity|]; intros ? _). destruct a3 as [|i|i].
      + reflexivity.
      + apply bind_ext; [reflexivity|]. intros m' E. apply nth_res_In in E. destruct E.
      + apply bind_ext; [apply external_copied, Hm|]. intros m' E. rewrite (external_copied s i Hm) in E. apply IH. eapply external_covered; eassumption.
  Qed.
  Lemma mm_fill_window_copied : forall fuel m b bits, covered m -> mm_fill_window st' fuel m b bits = mm_fill_window st fuel m b bits.
  Proof.
    induction fuel as [|fuel IH]; intros m b bits Hm; [reflexivity|]. cbn [mm_fill_window]. destruct m as [s|ch|s local].
    - do 2 (apply bind_ext; [reflexivity|]; intros ? _). apply flat_mapM_ext. intros [[[sp i] len] off].
      apply bind_ext; [reflexivity|]. intros c Hc. apply nth_res_In, Hm in Hc.
      apply bind_ext; [apply get_mm_copied, Hc|]. intros m' E. rewrite (get_mm_copied c Hc) in E. rewrite IH; [reflexivity|]. eapply loaded_covered; eassumption.
    - reflexivity.
    - destruct Hm as [-> Hm]. do 2 (apply bind_ext; [reflexivity|]; intros ? _). apply flat_mapM_ext. intros sw. cbv zeta.
      apply bind_ext; [|reflexivity]. f_equal. apply bind_ext; [reflexivity|]. intros rf _. destruct rf as [|i|i].
      + reflexivity.
      + apply bind_ext; [reflexivity|]. intros m' E. apply nth_res_In in E. destruct E.
      + apply bind_ext; [apply external_copied, Hm|]. intros m' E. rewrite (external_copied s i Hm) in E. apply IH. eapply external_covered; eassumption.
  Qed.
  Lemma mm_search_copied : forall fuel m b lo up, covered m -> mm_search st' fuel m b lo up = mm_search st fuel m b lo up.
  Proof.
    induction fuel as [|fuel IH]; intros m b lo up Hm; [reflexivity|]. cbn [mm_search]. destruct m as [s|ch|s local].
    - do 2 (apply bind_ext; [reflexivity|]; intros ? _). apply flat_mapM_ext. intros [[[sp i] len] off].
      apply bind_ext; [reflexivity|]. intros c Hc. apply nth_res_In, Hm in Hc. f_equal.
      apply bind_ext; [apply get_mm_copied, Hc|]. intros m' E. rewrite (get_mm_copied c Hc) in E. rewrite IH; [reflexivity|]. eapply loaded_covered; eassumption.
    - reflexivity.
    - destruct Hm as [-> Hm]. destruct (rearrangeZ lo up) as [lo' up']. apply bind_ext; [reflexivity|]. intros subs _. apply flat_mapM_ext. intros sw. cbv zeta.
      apply bind_ext; [reflexivity|]. intros some _. destruct some; [|reflexivity]. f_equal. apply bind_ext; [reflexivity|]. intros rf _. destruct rf as [|i|i].
      + reflexivity.
      + apply bind_ext; [reflexivity|]. intros m' E. apply nth_res_In in E. destruct E.
      + apply bind_ext; [apply external_copied, Hm|]. intros m' E. rewrite (external_copied s i Hm) in E. rewrite IH; [reflexivity|]. eapply external_covered; eassumption.
  Qed.
End Copy.

(** ** C42 *)

(** Every call of the library that starts from an identifier met by the listing gives
    the same in the copy: loading it as a dataset, a list of links or an array, listing it,
    and every read and search of the array, whether it succeeds or not. *)
Theorem C42_listing_is_enough : forall st st' root, walkable st root -> copied st st' root ->
  forall c, reached st root c ->
    get_dataset st' c = get_dataset st c /\ get_links st' c = get_links st c /\ get_mm st' c = get_mm st c /\
    resolver_ls st' c = resolver_ls st c /\
    forall m, get_mm st c = Ok m -> forall fuel,
      (forall A (R : reader A) t r k, arr_get R st' fuel m t r k = arr_get R st fuel m t r k) /\
      (forall A (R : reader A) start end_ r k, arr_cell R st' fuel m start end_ r k = arr_cell R st fuel m start end_ r k) /\
      (forall A (R : reader A) order b, arr_window R st' fuel order m b = arr_window R st fuel order m b) /\
      (forall b lower upper, arr_search st' fuel m b lower upper = arr_search st fuel m b lower upper).
Proof.
  intros st st' root HW HC c Hc. split; [eapply get_dataset_copied; eassumption|]. split; [eapply get_links_copied; eassumption|].
  split; [eapply get_mm_copied; eassumption|]. split; [eapply listing_copied; eassumption|].
  intros m Em fuel. pose proof (loaded_covered st root HW c m Hc Em) as Hm. repeat split; intros.
  - unfold arr_get. rewrite (mm_get_copied st st' root) by assumption. reflexivity.
  - unfold arr_cell. rewrite (mm_fill_cell_copied st st' root) by assumption. reflexivity.
  - unfold arr_window. rewrite (mm_fill_window_copied st st' root) by assumption. reflexivity.
  - unfold arr_search. rewrite (mm_search_copied st st' root) by assumption. reflexivity.
Qed.

(** What is met from an object is met in the copy too, and nothing else. *)
Theorem C42_same_reached : forall st st' root, walkable st root -> copied st st' root ->
  forall c, reached st' root c <-> reached st root c.
Proof.
  intros st st' root HW HC c. split; intros H.
  - induction H as [|c entries e H IH E He]; [constructor|]. eapply reached_entry; [exact IH| |exact He].
    rewrite (listing_copied st st' root HW HC c IH) in E. exact E.
  - induction H as [|c entries e H IH E He]; [constructor|]. eapply reached_entry; [exact IH| |exact He].
    rewrite (listing_copied st st' root HW HC c H). exact E.
Qed.

(** What the library writes can be walked. *)
Lemma written_walkable st root : written st -> walkable st root.
Proof.
  intros HW c n _ R. pose proof (written_retrieve st c n HW R) as NL. split; [exact NL|].
  destruct (C36_ls_exact st c n R NL) as (entries & E & _); [|eauto].
  intros name x b _ E. apply store_get_some in E. unfold written in HW. rewrite Forall_forall in HW. destruct (HW _ E) as (n' & _ & Eb). eauto.
Qed.

(** As [holds] of HistoryProofs.v, for the one store [st]. *)
Definition holds_in lc lg (rows cols : nat) (c : config) (st : store) (v : variable) (g : nat -> nat -> nat -> carrier (cf_type c)) (T : nat) : Prop :=
  exists m depth, forall fuel, depth <= fuel ->
    var_data (dt_of lg (cf_type c)) st v = Ok m /\
    (exists g', reads_as (reader_of (cf_type c)) st fuel m T rows cols g' /\
       forall t r k, t < T -> r < rows -> k < cols -> kept (cf_type c) (cf_round c) (g' t r k) (g t r k)) /\
    finds lc rows cols c (cf_type c) st fuel m T g.

Lemma reads_as_copied {A} (R : reader A) st st' root fuel m n h w g : walkable st root -> copied st st' root -> covered st root m ->
  reads_as R st fuel m n h w g -> reads_as R st' fuel m n h w g.
Proof.
  intros HW HC Hm [A1 A2 A3 A4 A5]. constructor; auto.
  - intros t r c Ht Hr Hc. unfold arr_get. rewrite (mm_get_copied st st' root) by assumption. apply A3; assumption.
  - intros b e r c H1 H2 Hr Hc. unfold arr_cell. rewrite (mm_fill_cell_copied st st' root) by assumption. apply A4; assumption.
  - intros order b e t bo l r H0 H1 H2 H3 H4. unfold arr_window. rewrite (mm_fill_window_copied st st' root) by assumption. apply A5; assumption.
Qed.
Lemma searches_as_copied st st' root fuel m n h w g : walkable st root -> copied st st' root -> covered st root m ->
  searches_as st fuel m n h w g -> searches_as st' fuel m n h w g.
Proof.
  intros HW HC Hm H b e t bo l r lo up H1 H2 H3 H4. unfold arr_search. rewrite (mm_search_copied st st' root) by assumption.
  exact (H b e t bo l r lo up H1 H2 H3 H4).
Qed.
Lemma finds_copied lc rows cols cf t st st' root fuel m T g : walkable st root -> copied st st' root -> covered st root m ->
  finds lc rows cols cf t st fuel m T g -> finds lc rows cols cf t st' fuel m T g.
Proof.
  intros HW HC Hm. destruct t; cbn [finds]; auto; intros H HS; (eapply searches_as_copied; [exact HW|exact HC|exact Hm|exact (H HS)]).
Qed.
Lemma walk_copied st st' root : walkable st root -> copied st st' root -> forall n c, reached st root c -> walk st' n c = walk st n c.
Proof.
  intros HW HC. induction n as [|n IH]; intros c Hc; [reflexivity|]. cbn [walk]. rewrite (get_dataset_copied st st' root HC c Hc).
  destruct (get_dataset st c) as [d| | |] eqn:E; try reflexivity. destruct (ds_prev d) as [p|] eqn:Ep; [|reflexivity]. rewrite IH; [reflexivity|].
  unfold get_dataset in E. apply bind_inv in E. destruct E as (nd & R & E). destruct nd as [d'|l|m]; try discriminate. injection E as ->.
  eapply (named_reached st root HW c _ (LName str_prev)); [exact Hc|exact R|]. cbn [node_ls]. apply in_or_app. right. rewrite Ep. left. reflexivity.
Qed.

(** After any valid history that starts from a store the library wrote, such as an empty
    one, commit the dataset and copy what listing the identifier reaches: the copy has the
    dataset with all variables, every variable holds there what was appended to it, and
    the chain of versions is the same. What is missing from C42: as for C24. *)
Theorem C42_history_partial : forall hash lc lg order fuel rows cols N coords es st0 st d c st1 st',
  setting hash lg order rows cols N coords -> valid lc fuel rows cols N es -> written st0 ->
  run hash lc lg order fuel (dataset_new coords rows cols) es st0 = (st, Ok d) ->
  dataset_commit hash d st = (st1, Ok c) -> functional st1 -> copied st1 st' c ->
  (exists d1, get_dataset st' c = Ok d1 /\ ds_vars d1 = ds_vars d /\ ds_coords d1 = coords /\ ds_rows d1 = rows /\ ds_cols d1 = cols) /\
  (forall cf, In cf (configs es) -> exists v, find_var (cf_name cf) (ds_vars d) = Some v /\
     holds_in lc lg rows cols cf st' v (appended es cf) (length_appended es cf)) /\
  (forall n, walk st' n c = walk st1 n c).
Proof.
  intros hash lc lg order fuel rows cols N coords es st0 st d c st1 st' HS HV W0 E Ec F1 HC.
  destruct (C26_old_versions_partial hash lc lg order fuel rows cols N coords es st0 st d c st1 HS HV E Ec d [] st1 (Ok d) eq_refl F1) as (w & Ew & H).
  destruct (H 0) as ((d1 & G1 & Gv & Gc & Gr & Gk) & HH). cbv zeta in G1, HH. cbn [firstn] in G1, HH. rewrite app_nil_r in G1, HH.
  assert (W1 : written st1).
  { pose proof (run_written hash lc lg order fuel rows cols N coords es HS HV st0) as RW. rewrite E in RW. cbn [fst] in RW.
    pose proof Ec as Ec'. unfold dataset_commit, osave in Ec'. destruct (save hash st (NDataset d)) as [c' s'] eqn:Es. injection Ec' as -> ->.
    assert (I0 : incl st st1) by (unfold save in Es; injection Es as _ <-; apply incl_appl, incl_refl).
    replace st1 with (snd (save hash st (NDataset d))) by (rewrite Es; reflexivity).
    assert (F0 : functional st) by (eapply functional_incl; eassumption).
    apply written_save; [|apply RW; assumption].
    destruct (run_result hash lc lg order fuel rows cols N coords es HS HV st0) as (d0 & E1 & HI); rewrite E in *; cbn [fst snd] in *; [exact F0|].
    injection E1 as <-. destruct HS as [S1 S2 SL [S3 S3'] [S4 S4'] S5 S6]. split; [|exact I].
    eapply (inv_wf hash lc lg fuel rows cols N S3 S4 S3' S4' coords es S6 HV st d es []); [symmetry; apply app_nil_r|exact HI]. }
  pose proof (written_walkable st1 c W1) as HW. split; [|split].
  - exists d1. rewrite (get_dataset_copied st1 st' c HC c (reached_root _ _)). auto.
  - intros cf Hcf. destruct (HH cf Hcf) as (v & Ev & m & depth & K). exists v. split; [exact Ev|]. exists m, depth. intros n Hn.
    destruct (K st1 n (incl_refl _) F1 Hn) as (KD & (g' & KR & KP) & KF).
    assert (Hv : reached st1 c (va_cid v)).
    { pose proof G1 as G. unfold get_dataset in G. apply bind_inv in G. destruct G as (nd & R & G). destruct nd as [d'|l|m']; try discriminate. injection G as ->.
      eapply (named_reached st1 c HW c _ (LName (va_name v))); [constructor|exact R|]. cbn [node_ls]. apply in_or_app. left.
      apply in_map_iff. exists v. split; [reflexivity|]. rewrite Gv. unfold find_var in Ev. apply find_some in Ev. apply Ev. }
    assert (Hm : covered st1 c m).
    { unfold var_data in KD. apply bind_inv in KD. destruct KD as (m' & Gm & KD). unfold arr_new in KD.
      destruct (encoding_eqb _ _); [|discriminate]. injection KD as ->. eapply loaded_covered; eassumption. }
    split; [|split].
    + unfold var_data in *. rewrite (get_mm_copied st1 st' c HC _ Hv). exact KD.
    + exists g'. split; [|exact KP]. eapply reads_as_copied; eassumption.
    + eapply finds_copied; eassumption.
  - intros n. apply (walk_copied st1 st' c HW HC). constructor.
Qed.

(** ** Concrete cases *)

(** The identifiers met, if [fuel] steps are enough. *)
Fixpoint collect (st : store) (fuel : nat) (c : cid) : option (list cid) :=
  match fuel with
  | 0 => None
  | S fuel' =>
      match resolver_ls st c with
      | Ok entries => option_map (fun ls => c :: concat ls)
          (fold_right (fun e acc => match collect st fuel' (le_cid e), acc with Some l, Some ls => Some (l :: ls) | _, _ => None end) (Some []) entries)
      | _ => Some [c]
      end
  end.
Lemma collect_step st fuel entries ls : fold_right (fun e acc => match collect st fuel (le_cid e), acc with Some l, Some ls => Some (l :: ls) | _, _ => None end)
  (Some []) entries = Some ls -> forall e, In e entries -> exists l, collect st fuel (le_cid e) = Some l /\ incl l (concat ls).
Proof.
  revert ls. induction entries as [|a entries IH]; intros ls H e He; [destruct He|]. cbn [fold_right] in H.
  destruct (collect st fuel (le_cid a)) as [l|] eqn:E; [|discriminate].
  destruct (fold_right _ _ entries) as [ls'|] eqn:E'; [|discriminate]. injection H as <-. cbn [concat]. destruct He as [->|He].
  - exists l. split; [exact E|apply incl_appl, incl_refl].
  - destruct (IH ls' eq_refl e He) as (l' & A & B). exists l'. split; [exact A|apply incl_appr, B].
Qed.
(** The lists of nested calls are parts of the list. *)
Lemma collect_all st : forall fuel root l, collect st fuel root = Some l ->
  forall c, reached st root c -> exists fuel' l', collect st fuel' c = Some l' /\ incl l' l.
Proof.
  intros fuel root l E c H. induction H as [|c entries e H IH E1 He]; [exists fuel, l; split; [exact E|apply incl_refl]|].
  destruct IH as (n & l1 & E2 & I1). destruct n as [|n]; [discriminate|]. cbn [collect] in E2. rewrite E1 in E2.
  destruct (fold_right _ _ entries) as [ls|] eqn:E3; [|discriminate]. cbn [option_map] in E2. injection E2 as <-.
  destruct (collect_step st n entries ls E3 e He) as (l2 & E4 & I2). exists n, l2. split; [exact E4|].
  eapply incl_tran; [exact I2|]. eapply incl_tran; [|exact I1]. apply incl_tl, incl_refl.
Qed.
Lemma collect_in st fuel root l : collect st fuel root = Some l -> forall c, reached st root c -> In c l.
Proof.
  intros E c H. destruct (collect_all st fuel root l E c H) as (n & l' & E' & I1). apply I1. destruct n as [|n]; [discriminate|]. cbn [collect] in E'.
  destruct (resolver_ls st c); [|injection E' as <-; left; reflexivity..].
  destruct (fold_right _ _ _); [|discriminate]. injection E' as <-. left. reflexivity.
Qed.

(** The store of the example history, and what listing the last version reaches: some
    of it only; and the copy without the rest. *)
Definition committed (x : store * res dataset) : store * res cid :=
  match x with (st, Ok d) => dataset_commit ex_hash d st | (st, _) => (st, Panic) end.
Definition ex_committed : store * res cid := committed ex_run.
Definition met (x : store * res cid) : list cid :=
  match snd x with Ok c => match collect (fst x) 12 c with Some l => l | None => [] end | _ => [] end.
Definition ex_met : list cid := met ex_committed.
Definition ex_copy : store := filter (fun p => existsb (cid_eqb (fst p)) ex_met) (fst ex_committed).
Lemma filter_get (P : cid -> bool) st c : P c = true -> store_get (filter (fun p => P (fst p)) st) c = store_get st c.
Proof.
  intros H. unfold store_get. induction st as [|[x b] st IH]; [reflexivity|]. cbn [filter find fst]. destruct (cid_eqb c x) eqn:E.
  - assert (Ex : c = x) by (apply cid_eqb_spec; exact E). subst x. rewrite H. cbn [find fst]. rewrite E. reflexivity.
  - destruct (P x); cbn [find fst]; [rewrite E|]; exact IH.
Qed.
Lemma met_copied st fuel c l : collect st fuel c = Some l -> copied st (filter (fun p => existsb (cid_eqb (fst p)) l) st) c.
Proof.
  intros E x Hx. apply (filter_get (fun y => existsb (cid_eqb y) l)). apply existsb_exists. exists x.
  split; [eapply collect_in; eassumption|]. apply cid_eqb_spec. reflexivity.
Qed.
Example C42_example : exists d c, snd ex_run = Ok d /\ dataset_commit ex_hash d (fst ex_run) = (fst ex_committed, Ok c) /\
  written [] /\ functional (fst ex_committed) /\ copied (fst ex_committed) ex_copy c /\ length ex_copy < length (fst ex_committed).
Proof.
  assert (E : (let '(st, c) := ex_committed in
    match c with Ok c => match collect st 12 c with Some l => functional_check st && (length (filter (fun p => existsb (cid_eqb (fst p)) l) st) <? length st) | None => false end | _ => false end) = true)
    by (vm_compute; reflexivity).
  assert (E0 : ex_committed = committed ex_run) by reflexivity.
  unfold ex_copy, ex_met, met. revert E E0. generalize ex_committed, ex_run. intros p0 [st d] E ->.
  destruct d as [d| | |]; [|cbn in E; discriminate..]. cbn [committed] in *. exists d.
  destruct (dataset_commit ex_hash d st) as [st1 [c| | |]] eqn:Ec; [|discriminate..]. exists c. cbn [fst snd] in *. rewrite Ec.
  destruct (collect st1 12 c) as [l|] eqn:E3; [|discriminate]. apply andb_true_iff in E. destruct E as [E4 E5].
  split; [reflexivity|]. split; [reflexivity|]. split; [constructor|]. split; [apply functional_checked; exact E4|].
  split; [eapply met_copied; exact E3|apply Nat.ltb_lt; exact E5].
Qed.

(** Without the condition on parts within an object it does not hold. A superchunk may
    hold a superchunk within itself: the library reads such objects, though it does not
    write them. The list of links of the inner one is not listed. *)
Definition nest (x : res (store * built)) : res (store * cid) :=
  x <- x ;;
  match mb_data (snd x) with
  | MSuper s [] =>
      zeros <- dac_of [0; 0; 0; 0]%Z ;;
      let '(empty, st) := save ex_hash (fst x) (NLinks []) in
      let outer := mkSuper 1 8 8 8 1 [RLocal 0; RElided; RElided; RElided] zeros zeros empty 0 (su_enc s) 4 2 in
      let '(c, st) := save ex_hash st (NMM (MSuper outer [mb_data (snd x)])) in Ok (st, c)
  | _ => Panic
  end.
Definition or_else {A} (x : res A) (y : A) : A := match x with Ok x => x | _ => y end.
Definition ex_nested : store * cid := or_else
  (nest (super_build ex_hash elem_i32 2 (SnapshotModel.log_ceil 2) [1; 1] (fun _ r k => Z.of_nat (1 + r * k)) 1 4 4 0 [])) ([], ex_cid 0).
Definition ex_outer : mmstruct := or_else (get_mm (fst ex_nested) (snd ex_nested)) (MSpan (mkSpan 0 0 0 0 [] EncI32)).
Definition ex_nested_copy : store := filter (fun p => existsb (cid_eqb (fst p)) (met (fst ex_nested, Ok (snd ex_nested)))) (fst ex_nested).
Theorem C42_nested_refuted : let '(st, c) := ex_nested in
  functional st /\ copied st ex_nested_copy c /\ get_mm st c = Ok ex_outer /\ get_mm ex_nested_copy c = Ok ex_outer /\
  arr_get reader_i32 st 9 ex_outer 0 3 3 = Ok 10%Z /\ arr_get reader_i32 ex_nested_copy 9 ex_outer 0 3 3 = Err ENotFound.
Proof.
  rewrite (surjective_pairing ex_nested). split; [apply functional_checked; vm_compute; reflexivity|]. split.
  { assert (E : collect (fst ex_nested) 12 (snd ex_nested) = Some (met (fst ex_nested, Ok (snd ex_nested)))) by (vm_compute; reflexivity).
    exact (met_copied _ _ _ _ E). }
  split; [vm_compute; reflexivity|]. split; [vm_compute; reflexivity|]. split; vm_compute; reflexivity.
Qed.

Print Assumptions C42_listing_is_enough.
Print Assumptions C42_same_reached.
Print Assumptions C42_history_partial.
Print Assumptions C42_nested_refuted.
