(** * C57: versions share the chunks they have in common. *)
From Coq Require Import ZArith Permutation.
From Flocq Require Import Core.Core IEEE754.BinarySingleNaN.
From Verif Require Import Base BaseFacts Spec GeomModel GeomProofs BitmapModel DacModel StreamModel StreamProofs ChunkModel ChunkStream ChunkReads
  NodeModel NodeProofs SuperModel SuperViews SuperProofs ArrayModel ArrayProofs FixedModel FloatModel FloatProofs FloatBuild DatasetModel DatasetProofs AppendProofs HistoryModel
  KindProofs HistoryProofs KeyProofs CanonProofs ShareProofs SessionModel SessionSpec SessionProofs StoryProofs.
From Verif Require SnapshotModel PropertiesFixed PropertiesFloat PropertiesNode PropertiesSuper PropertiesDataset PropertiesListing PropertiesClosed PropertiesSession PropertiesCanon.
Import PropertiesFixed PropertiesFloat PropertiesNode PropertiesDataset PropertiesListing PropertiesClosed PropertiesSession PropertiesCanon.
Arguments Nat.pow : simpl never.
Open Scope nat_scope.

(** ** Specification *)

(** The first [n] instants hold the same values. *)
Definition same_beginning rows cols (t : vtype) (n : nat) (g g' : nat -> nat -> nat -> carrier t) : Prop :=
  forall i r k, i < n -> r < rows -> k < cols -> same_value t (g i r k) (g' i r k).

(** Instant [t] of the array [c] in [st] and of the array [c'] in [st'] are stored in one and
    the same object, and in no other. ([chunk_at]: spans are followed down to an array.) *)
Definition same_chunk (st : store) (c : cid) (st' : store) (c' : cid) (t : nat) : Prop :=
  exists x, (forall y, chunk_at st c t y <-> y = x) /\ (forall y, chunk_at st' c' t y <-> y = x).

(** ** Proofs *)
Section Shared.
  Variables (hash : bytes -> cid) (lc : nat -> nat) (lg : f64 -> nat) (fuel rows cols : nat) (c : config).
  Hypothesis Hlg : log2_accurate lg.
  Hypothesis HC : config_ok lc fuel rows cols c.
  Hypothesis HX : keeps_exactly c.

  Lemma chunk_made g st off n m s : leaf_ok (chunk_V hash lc lg rows cols (cf_levels c) (cf_round c) (cf_type c)) g st off n m -> m <> MSpan s.
  Proof. intros (_ & _ & M). destruct (M HX) as (bits & b & _ & E & ->). exact (super_not_span _ _ _ _ _ _ _ _ _ _ _ _ s E). Qed.

  Lemma shared g g' st st' v v' T T' n t : var_tree hash lc lg rows cols c g st (va_cid v) T -> var_tree hash lc lg rows cols c g' st' (va_cid v') T' ->
    chunks_fit lc rows cols c g T -> chunks_fit lc rows cols c g' T' ->
    functional st -> functional st' -> written st -> written st' -> addressed hash st -> addressed hash st' ->
    n <= T -> n <= T' -> same_beginning rows cols (cf_type c) n g g' -> t / cf_chunk c * cf_chunk c + cf_chunk c <= n ->
    same_chunk st (va_cid v) st' (va_cid v') t.
  Proof.
    intros (e & He & _ & m & h & G & Nd & _) (e' & He' & _ & m' & h' & G' & Nd' & _) HG HG' HF HF' HW HW' HA HA' LT LT' HS Ht.
    destruct HC as [C1 C2 [C3 C3'] [C4 C4'] C5 C6 C7 C8].
    assert (B : t < n). { pose proof (Nat.div_mod t (cf_chunk c) ltac:(clear -C4; lia)) as D. pose proof (Nat.mod_upper_bound t (cf_chunk c) ltac:(clear -C4; lia)) as U.
      rewrite Nat.mul_comm in D. revert D U Ht. generalize (t / cf_chunk c * cf_chunk c) (t mod cf_chunk c). clear. intros; lia. }
    destruct (node_chunk rows cols (cf_chunk c) (cf_span c) (enc_of (cf_type c)) (leaf_ok (chunk_V hash lc lg rows cols (cf_levels c) (cf_round c) (cf_type c)) g) st C4 C3 HF (chunk_made g st) h (va_cid v) 0 T e m t G Nd)
      as (x & mx & X1 & X2 & X3); [clear -B LT; lia|].
    destruct (node_chunk rows cols (cf_chunk c) (cf_span c) (enc_of (cf_type c)) (leaf_ok (chunk_V hash lc lg rows cols (cf_levels c) (cf_round c) (cf_type c)) g') st' C4 C3 HF' (chunk_made g' st') h' (va_cid v') 0 T' e' m' t G' Nd')
      as (x' & mx' & X1' & X2' & X3'); [clear -B LT'; lia|].
    set (o := t / cf_chunk c * cf_chunk c) in *. clearbody o.
    replace (Nat.min (cf_chunk c) (T - o)) with (cf_chunk c) in X3 by (clear -Ht LT; lia).
    replace (Nat.min (cf_chunk c) (T' - o)) with (cf_chunk c) in X3' by (clear -Ht LT'; lia).
    assert (E : mx = mx').
    { destruct X3 as (_ & _ & M), X3' as (_ & _ & M'). eapply (made_one hash lc lg rows cols (cf_levels c) (cf_round c) Hlg (cf_type c)); [exact HX| |exact M|exact M'].
      pose proof (chunks_fit_refl lc rows cols c g T C4 HG) as R. pose proof (chunks_fit_refl lc rows cols c g' T' C4 HG') as R'.
      intros s r k Hs Hr Hk. cbv beta. cbn [Nat.add] in *. apply same_value_of; [exact HX|apply R|apply R'|apply HS]; auto; clear -Hs Ht LT LT'; lia. }
    subst mx'. assert (x' = x) by (rewrite (got_identifier hash st x mx HW HA X2), (got_identifier hash st' x' mx HW' HA' X2'); reflexivity). subst x'.
    exists x. split; intros y; (split; [intros Hy; symmetry|intros ->; assumption]); [exact (chunk_at_one _ _ _ _ X1 _ Hy)|exact (chunk_at_one _ _ _ _ X1' _ Hy)].
  Qed.
End Shared.

Lemma same_value_refl t round x : exact_type round t -> same_of t round x x -> same_value t x x.
Proof.
  destruct t; cbn; auto; intros ->.
  all: intros [(A & _)|((A & _) & _)]; [left; auto|right; rewrite Beqb_correct by exact A; apply Req_bool_true; reflexivity].
Qed.
Lemma joined_before {A} z (l l' : list (array3 A)) t r c : t < total l -> joined z (l ++ l') t r c = joined z l t r c.
Proof.
  revert t. induction l as [|a l IH]; intros t; cbn [joined total app]; [intros H; clear -H; lia|]. intros H.
  destruct (t <? instants3 a) eqn:L; [reflexivity|]. apply Nat.ltb_ge in L. apply IH. clear -H L. lia.
Qed.

Lemma shared_identifiers hash lc lg fuel fuel' rows cols N N' coords coords' es es' st st' d d' c name :
  log2_accurate lg -> valid lc fuel rows cols N es -> valid lc fuel' rows cols N' es' ->
  inv hash lc lg rows cols coords es st d es -> inv hash lc lg rows cols coords' es' st' d' es' ->
  functional (st ++ st') -> written st -> written st' -> addressed hash st -> addressed hash st' ->
  In c (configs es) -> In (renamed name c) (configs es') -> keeps_exactly c ->
  exists v v', find_var (cf_name c) (ds_vars d) = Some v /\ find_var name (ds_vars d') = Some v' /\
    forall n t, n <= length_appended es c -> n <= length_appended es' (renamed name c) ->
      same_beginning rows cols (cf_type c) n (appended es c) (appended es' (renamed name c)) ->
      t / cf_chunk c * cf_chunk c + cf_chunk c <= n -> same_chunk st (va_cid v) st' (va_cid v') t.
Proof.
  intros Hlg HV HV' HI HI' HF HW HW' HA HA' Hc Hc' HX.
  destruct (variable_of _ _ _ _ _ _ _ _ _ _ _ _ HV HI Hc) as (v & E & O & Tr & Ch).
  destruct (variable_of _ _ _ _ _ _ _ _ _ _ _ _ HV' HI' Hc') as (v' & E' & O' & Tr' & Ch').
  exists v, v'. split; [exact E|]. split; [exact E'|]. intros n t L L' HS Ht.
  apply (shared hash lc lg fuel rows cols c Hlg O HX (appended es c) (appended es' (renamed name c)) st st' v v' _ _ n t Tr Tr' Ch Ch'); try assumption;
    (eapply functional_incl; [|exact HF]); [apply incl_appl, incl_refl|apply incl_appr, incl_refl].
Qed.

(** ** C57 *)

(** Two histories whatsoever, and in each a variable with the same configuration (the names may differ).
    If the first [n] instants are the same in both, the chunks that lie within them are the same objects. *)
Theorem C57_histories : forall hash lc lg rows cols order order' fuel fuel' N N' coords coords' es es' st0 st0' st st' d d' c name,
  setting hash lg order rows cols N coords -> valid lc fuel rows cols N es ->
  setting hash lg order' rows cols N' coords' -> valid lc fuel' rows cols N' es' ->
  written st0 -> addressed hash st0 -> written st0' -> addressed hash st0' ->
  run hash lc lg order fuel (dataset_new coords rows cols) es st0 = (st, Ok d) ->
  run hash lc lg order' fuel' (dataset_new coords' rows cols) es' st0' = (st', Ok d') ->
  functional (st ++ st') ->
  In c (configs es) -> In (renamed name c) (configs es') -> keeps_exactly c ->
  exists v v', find_var (cf_name c) (ds_vars d) = Some v /\ find_var name (ds_vars d') = Some v' /\
    forall n t, n <= length_appended es c -> n <= length_appended es' (renamed name c) ->
      same_beginning rows cols (cf_type c) n (appended es c) (appended es' (renamed name c)) ->
      t / cf_chunk c * cf_chunk c + cf_chunk c <= n -> same_chunk st (va_cid v) st' (va_cid v') t.
Proof.
  intros hash lc lg rows cols order order' fuel fuel' N N' coords coords' es es' st0 st0' st st' d d' c name HS HV HS' HV' W0 A0 W0' A0' E E' HF Hc Hc' HX.
  assert (F : functional st) by (eapply functional_incl; [|exact HF]; apply incl_appl, incl_refl).
  assert (F' : functional st') by (eapply functional_incl; [|exact HF]; apply incl_appr, incl_refl).
  pose proof (run_result hash lc lg order fuel rows cols N coords es HS HV st0) as R. pose proof (run_written hash lc lg order fuel rows cols N coords es HS HV st0) as W.
  pose proof (keyed_run hash lc lg order fuel (dataset_new coords rows cols) es st0 A0) as A. rewrite E in R, W, A. cbn [fst snd] in R, W, A.
  pose proof (run_result hash lc lg order' fuel' rows cols N' coords' es' HS' HV' st0') as R'. pose proof (run_written hash lc lg order' fuel' rows cols N' coords' es' HS' HV' st0') as W'.
  pose proof (keyed_run hash lc lg order' fuel' (dataset_new coords' rows cols) es' st0' A0') as A'. rewrite E' in R', W', A'. cbn [fst snd] in R', W', A'.
  destruct (R F) as (x & Ex & HI). injection Ex as <-. destruct (R' F') as (x & Ex & HI'). injection Ex as <-.
  apply (shared_identifiers hash lc lg fuel fuel' rows cols N N' coords coords' es es' st st' d d' c name); auto. exact (se_log2 _ _ _ _ _ _ _ HS).
Qed.

(** The same for datasets in use in a session, and in particular for a dataset and what it became by
    further appends: all chunks that were complete before are still in use afterwards. *)
Theorem C57_sessions : forall hash lc lg order fuel M C S l,
  limits hash lc order M C S -> Forall (action_ok C S) l -> all_fit M hash lc lg order fuel session_start l ->
  let x := run_session hash lc lg order fuel session_start l in functional (se_ever x) ->
  forall i i' d d' coords coords' rows cols es es' N N' c name,
  nth_error (se_open x) i = Some d -> nth_error (se_open x) i' = Some d' ->
  nth_error (to_open (run_told hash lc lg order fuel told_start l)) i = Some (Some (mkStory coords rows cols es)) ->
  nth_error (to_open (run_told hash lc lg order fuel told_start l)) i' = Some (Some (mkStory coords' rows cols es')) ->
  setting hash lg order rows cols N coords -> valid lc fuel rows cols N es ->
  setting hash lg order rows cols N' coords' -> valid lc fuel rows cols N' es' ->
  In c (configs es) -> In (renamed name c) (configs es') -> keeps_exactly c ->
  exists v v', find_var (cf_name c) (ds_vars d) = Some v /\ find_var name (ds_vars d') = Some v' /\
    (forall n t, n <= length_appended es c -> n <= length_appended es' (renamed name c) ->
      same_beginning rows cols (cf_type c) n (appended es c) (appended es' (renamed name c)) ->
      t / cf_chunk c * cf_chunk c + cf_chunk c <= n -> same_chunk (se_store x) (va_cid v) (se_store x) (va_cid v') t) /\
    (forall more t, es' = es ++ more -> name = cf_name c ->
      t / cf_chunk c * cf_chunk c + cf_chunk c <= length_appended es c -> same_chunk (se_store x) (va_cid v) (se_store x) (va_cid v') t).
Proof.
  intros hash lc lg order fuel M C S l HL HO HB x HF i i' d d' coords coords' rows cols es es' N N' c name Hd Hd' Ht Ht' HS HV HS' HV' Hc Hc' HX.
  destruct (session_dataset hash lc lg rows cols order fuel M C S l i d coords es N) as (I1 & W1 & A1 & N1); auto.
  destruct (session_dataset hash lc lg rows cols order fuel M C S l i' d' coords' es' N') as (I2 & W2 & A2 & N2); auto.
  assert (F : functional (se_store x ++ se_store x)) by (eapply functional_incl; [|exact HF]; apply incl_app; exact N1).
  destruct (shared_identifiers hash lc lg fuel fuel rows cols N N' coords coords' es es' (se_store x) (se_store x) d d' c name) as (v & v' & E & E' & Q); auto; [exact (se_log2 _ _ _ _ _ _ _ HS)|].
  exists v, v'. split; [exact E|]. split; [exact E'|]. split; [exact Q|]. intros more t -> -> L.
  change (length_appended (es ++ more) (renamed (cf_name c) c)) with (length_appended (es ++ more) c) in Q.
  change (appended (es ++ more) (renamed (cf_name c) c)) with (appended (es ++ more) c) in Q.
  assert (EL : length_appended (es ++ more) c = length_appended es c + length_appended more c) by (unfold length_appended; rewrite batches_app, total_app; reflexivity).
  apply (Q (length_appended es c) t); [apply le_n|rewrite EL; apply Nat.le_add_r| |exact L].
  intros j r k Hj Hr Hk.
  assert (EJ : appended (es ++ more) c j r k = appended es c j r k).
  { unfold appended, length_appended in *. rewrite batches_app. apply joined_before. exact Hj. }
  rewrite EJ. destruct HV as [_ _ V3 _ V5]. rewrite Forall_forall in V3. destruct (V3 c Hc) as [_ _ _ [C4 _] _ _ _ _]. destruct (V5 c Hc) as (_ & H). specialize (H es [] ltac:(symmetry; apply app_nil_r)).
  pose proof (chunks_fit_refl lc rows cols c _ _ C4 H j r k Hj Hr Hk) as R. exact (same_value_refl (cf_type c) (cf_round c) _ HX R).
Qed.

(** ** Example *)

(** The session of C55: dataset [4] has four instants, in two chunks, and dataset [5] is made of it by
    appending three more. The identifiers of the two arrays differ; both have the chunks of the first
    four instants. *)
Definition ex_first : list event := firstn 3 ex_short.
Lemma ex_first_valid : valid ex_lc 4 2 2 1000 ex_first.
Proof.
  apply ex_use; unfold ex_first, ex_short; cbn [firstn].
  - cbn [configs map cf_name ex_one]; repeat constructor; cbn; intuition discriminate.
  - reflexivity.
  - intros c Hc; cbn in Hc |- *; tauto.
  - cbn [appends_to app];
      repeat match goal with
      | |- (exists c, _) /\ _ => split
      | |- exists c, _ => exists ex_one; cbn; now auto 10
      | |- True => exact Logic.I
      end.
  - intros name; cbn [batches as_type]; repeat match goal with |- context [bytes_eqb ?a ?b] => destruct (bytes_eqb a b) end; repeat constructor; eauto.
  - vm_compute; reflexivity.
Qed.
Example C57_sessions_example :
  nth_error (to_open ex_told_fork) 4 = Some (Some (mkStory ex_coords 2 2 ex_first)) /\
  nth_error (to_open ex_told_fork) 5 = Some (Some (mkStory ex_coords 2 2 (ex_first ++ [Append I32 [97]%N (ex_slice 4 3)]))) /\
  valid ex_lc 4 2 2 1000 ex_first /\ valid ex_lc 4 2 2 1000 (ex_first ++ [Append I32 [97]%N (ex_slice 4 3)]) /\
  length_appended ex_first ex_one = 4 /\ 3 / cf_chunk ex_one * cf_chunk ex_one + cf_chunk ex_one = 4 /\
  match nth_error (se_open ex_forked) 4, nth_error (se_open ex_forked) 5 with
  | Some d, Some d' => match ds_vars d, ds_vars d' with
      | [v], [v'] => cid_eqb (va_cid v) (va_cid v') = false
      | _, _ => False
      end
  | _, _ => False
  end.
Proof.
  split; [vm_compute; reflexivity|]. split; [vm_compute; reflexivity|]. split; [exact ex_first_valid|]. split; [apply ex_valid; cbn; auto|].
  split; [vm_compute; reflexivity|]. split; [vm_compute; reflexivity|]. vm_compute. reflexivity.
Qed.

Print Assumptions C57_histories.
Print Assumptions C57_sessions.
