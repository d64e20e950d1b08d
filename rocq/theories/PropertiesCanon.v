(** * C55: the same data get the same identifier, however they were appended. *)
From Coq Require Import ZArith Permutation.
From Flocq Require Import Core.Core IEEE754.BinarySingleNaN.
From Verif Require Import Base BaseFacts Spec GeomModel GeomProofs BitmapModel DacModel StreamModel StreamProofs ChunkModel ChunkStream ChunkReads
  NodeModel NodeProofs SuperModel SuperViews SuperProofs ArrayModel ArrayProofs FixedModel FloatModel FloatProofs FloatBuild DatasetModel DatasetProofs AppendProofs HistoryModel
  KindProofs HistoryProofs KeyProofs CanonProofs SessionModel SessionSpec SessionProofs StoryProofs.
From Verif Require SnapshotModel PropertiesFixed PropertiesFloat PropertiesNode PropertiesSuper PropertiesDataset PropertiesListing PropertiesClosed PropertiesSession.
Import PropertiesFixed PropertiesFloat PropertiesNode PropertiesDataset PropertiesListing PropertiesClosed PropertiesSession.
Arguments Nat.pow : simpl never.
Open Scope nat_scope.

(** ** Specification *)

(** The values are the same: equal integers, floats that compare as equal ([==] of
    Rust, for which the two zeros are equal), or two NaNs. *)
Definition same_value (t : vtype) : carrier t -> carrier t -> Prop :=
  match t with
  | I32 | I64 => eq
  | F32 | F64 => fun x y => (is_nan x = true /\ is_nan y = true) \/ Beqb x y = true
  end.

(** A variable that keeps values as they are: any integers, and floats without rounding. *)
Definition keeps_exactly (c : config) : Prop := match cf_type c with I32 | I64 => True | F32 | F64 => cf_round c = None end.

(** The same configuration under another name. *)
Definition renamed (name : bytes) (c : config) : config :=
  mkConfig name (cf_round c) (cf_span c) (cf_chunk c) (cf_levels c) (cf_type c).

(** As many instants, with the same values. *)
Definition same_data rows cols (t : vtype) (T T' : nat) (g g' : nat -> nat -> nat -> carrier t) : Prop :=
  T = T' /\ forall i r k, i < T -> r < rows -> k < cols -> same_value t (g i r k) (g' i r k).

(** ** Proofs *)
Definition same_number {prec emax} (x y : binary_float prec emax) : Prop := (is_nan x = true /\ is_nan y = true) \/ Beqb x y = true.
Lemma nan_unequal {prec emax} (x y : binary_float prec emax) : is_nan x = true \/ is_nan y = true -> Beqb x y = false.
Proof. destruct x as [[]|[]| |[]], y as [[]|[]| |[]]; cbn; intros [H|H]; try discriminate H; reflexivity. Qed.
Lemma same_number_of {prec emax} (x y : binary_float prec emax) : same_float None x x -> same_float None y y -> same_number x y -> same_float None x y.
Proof.
  intros Hx Hy [[A B]|B]; [left; auto|right].
  destruct Hx as [(Nx & _)|(Sx & _)]; [rewrite nan_unequal in B by auto; discriminate B|].
  destruct Hy as [(Ny & _)|(Sy & _)]; [rewrite nan_unequal in B by auto; discriminate B|].
  split; [exact Sx|]. split; [exact Sy|]. destruct Sx as (Fx & _), Sy as (Fy & _).
  rewrite Beqb_correct in B by assumption. revert B. case Req_bool_spec; [|discriminate]. intros E _. exact E.
Qed.
Lemma kept_same_number {prec emax} (z x y : binary_float prec emax) : same_float None x x -> same_float None y y ->
  reads_back None z x -> reads_back None z y -> same_number x y.
Proof.
  unfold reads_back. intros Hx Hy Kx Ky.
  destruct Hx as [(Nx & _)|((Fx & _) & _)]; [rewrite Nx in Kx|rewrite (finite_not_nan _ _ _ Fx) in Kx];
  (destruct Hy as [(Ny & _)|((Fy & _) & _)]; [rewrite Ny in Ky|rewrite (finite_not_nan _ _ _ Fy) in Ky]).
  - left. auto.
  - destruct Ky as (Fz & _). apply finite_not_nan in Fz. congruence.
  - destruct Kx as (Fz & _). apply finite_not_nan in Fz. congruence.
  - right. rewrite Beqb_correct by assumption. apply Req_bool_true. destruct Kx as (_ & Kx), Ky as (_ & Ky). cbn in Kx, Ky. congruence.
Qed.
Lemma same_value_of t round x y : exact_type round t -> same_of t round x x -> same_of t round y y ->
  same_value t x y -> same_of t round x y.
Proof. destruct t; intros X; [intros _ _ H; exact H|intros _ _ H; exact H| |]; unfold exact_type in X; subst round; apply same_number_of. Qed.
Lemma kept_same_value t round z x y : exact_type round t -> same_of t round x x -> same_of t round y y ->
  kept t round z x -> kept t round z y -> same_value t x y.
Proof. destruct t; intros X; [cbn; congruence|cbn; congruence| |]; unfold exact_type in X; subst round; apply kept_same_number. Qed.

Section Same.
  Variables (hash : bytes -> cid) (lc : nat -> nat) (lg : f64 -> nat) (fuel rows cols : nat) (c : config).
  Hypothesis Hlg : log2_accurate lg.
  Hypothesis HC : config_ok lc fuel rows cols c.
  Hypothesis HX : keeps_exactly c.
  Variables (g g' : nat -> nat -> nat -> carrier (cf_type c)) (st st' : store) (v v' : variable) (T T' : nat).
  Hypothesis HT : var_tree hash lc lg rows cols c g st (va_cid v) T.
  Hypothesis HT' : var_tree hash lc lg rows cols c g' st' (va_cid v') T'.
  Hypothesis HG : chunks_fit lc rows cols c g T.
  Hypothesis HG' : chunks_fit lc rows cols c g' T'.

  Lemma same_identifier : functional st -> functional st' -> written st -> written st' -> addressed hash st -> addressed hash st' ->
    same_data rows cols (cf_type c) T T' g g' -> va_cid v = va_cid v'.
  Proof.
    intros HF HF' HW HW' HA HA' [<- HS]. destruct HT as (e & E & Tr), HT' as (e' & E' & Tr'). destruct HC as [C1 C2 [C3 C3'] [C4 C4'] C5 C6 C7 C8].
    eapply (tree_same hash rows cols (cf_chunk c) (cf_span c) (enc_of (cf_type c))
      (leaf_ok (chunk_V hash lc lg rows cols (cf_levels c) (cf_round c) (cf_type c)) g)
      (leaf_ok (chunk_V hash lc lg rows cols (cf_levels c) (cf_round c) (cf_type c)) g') st st' T C4 C3 HF HF' HW HW' HA HA');
      [|exact Tr|exact Tr'|exact E|exact E'].
    intros i n m m' Hi Hn (_ & _ & M) (_ & _ & M'). eapply (made_one hash lc lg rows cols (cf_levels c) (cf_round c) Hlg (cf_type c)); [exact HX| |exact M|exact M'].
    pose proof (chunks_fit_refl lc rows cols c g T C4 HG) as R. pose proof (chunks_fit_refl lc rows cols c g' T C4 HG') as R'.
    intros s r k Hs Hr Hk. cbv beta. assert (B : i * cf_chunk c + s < T) by (subst n; clear -Hs Hi; lia).
    apply same_value_of; [exact HX|apply R|apply R'|apply HS]; auto.
  Qed.
  Lemma same_contents : functional (st ++ st') -> va_cid v = va_cid v' -> same_data rows cols (cf_type c) T T' g g'.
  Proof.
    intros HF Ev. destruct HC as [C1 C2 [C3 C3'] [C4 C4'] C5 C6 C7 C8].
    destruct (tree_holds hash lc lg fuel rows cols c HC g st v T HT) as (m & dp & H). destruct (tree_holds hash lc lg fuel rows cols c HC g' st' v' T' HT') as (m' & dp' & H').
    specialize (H (st ++ st') (dp + dp') ltac:(apply incl_appl, incl_refl) HF ltac:(clear; lia)).
    specialize (H' (st ++ st') (dp + dp') ltac:(apply incl_appr, incl_refl) HF ltac:(clear; lia)).
    destruct H as (D & (f & R & K) & _), H' as (D' & (f' & R' & K') & _).
    unfold var_data in D, D'. rewrite Ev in D. rewrite D in D'. injection D' as <-.
    pose proof (ra_shape _ _ _ _ _ _ _ _ R) as S. rewrite (ra_shape _ _ _ _ _ _ _ _ R') in S. injection S as <-. split; [reflexivity|].
    intros i r k Hi Hr Hk. specialize (K i r k Hi Hr Hk). specialize (K' i r k Hi Hr Hk).
    pose proof (ra_get _ _ _ _ _ _ _ _ R i r k Hi Hr Hk) as G. rewrite (ra_get _ _ _ _ _ _ _ _ R' i r k Hi Hr Hk) in G. injection G as G. rewrite G in K'.
    eapply kept_same_value; [exact HX|apply (chunks_fit_refl lc rows cols c g T' C4 HG)|apply (chunks_fit_refl lc rows cols c g' T' C4 HG')|exact K|exact K']; auto.
  Qed.
End Same.

(** A variable of a dataset whose story is valid. *)
Lemma variable_of hash lc lg fuel rows cols N coords es st d c : valid lc fuel rows cols N es -> inv hash lc lg rows cols coords es st d es -> In c (configs es) ->
  exists v, find_var (cf_name c) (ds_vars d) = Some v /\ config_ok lc fuel rows cols c /\
    var_tree hash lc lg rows cols c (appended es c) st (va_cid v) (length_appended es c) /\
    chunks_fit lc rows cols c (appended es c) (length_appended es c).
Proof.
  intros [V1 V2 V3 V4 V5] HI Hc. pose proof (in_vars _ _ _ _ _ _ _ _ _ _ HI) as H6.
  destruct (find_config _ _ _ (var_ok_name hash lc lg rows cols es st es) H6 V1 c Hc) as (v & Ev & Hvar & HT).
  exists v. rewrite Forall_forall in V3. split; [exact Ev|]. split; [apply V3; exact Hc|]. split; [exact HT|].
  destruct (V5 c Hc) as (_ & H). apply (H es []). symmetry. apply app_nil_r.
Qed.
Lemma renamed_ok lc fuel rows cols name c : wf_name name -> config_ok lc fuel rows cols c -> config_ok lc fuel rows cols (renamed name c).
Proof. intros H [C1 C2 C3 C4 C5 C6 C7 C8]. constructor; assumption. Qed.

Lemma identifiers hash lc lg fuel fuel' rows cols N N' coords coords' es es' st st' d d' c name :
  log2_accurate lg -> valid lc fuel rows cols N es -> valid lc fuel' rows cols N' es' ->
  inv hash lc lg rows cols coords es st d es -> inv hash lc lg rows cols coords' es' st' d' es' ->
  functional (st ++ st') -> written st -> written st' -> addressed hash st -> addressed hash st' ->
  In c (configs es) -> In (renamed name c) (configs es') -> keeps_exactly c ->
  exists v v', find_var (cf_name c) (ds_vars d) = Some v /\ find_var name (ds_vars d') = Some v' /\
    (va_cid v = va_cid v' <->
     same_data rows cols (cf_type c) (length_appended es c) (length_appended es' (renamed name c)) (appended es c) (appended es' (renamed name c))).
Proof.
  intros Hlg HV HV' HI HI' HF HW HW' HA HA' Hc Hc' HX.
  destruct (variable_of _ _ _ _ _ _ _ _ _ _ _ _ HV HI Hc) as (v & E & O & Tr & Ch).
  destruct (variable_of _ _ _ _ _ _ _ _ _ _ _ _ HV' HI' Hc') as (v' & E' & O' & Tr' & Ch').
  exists v, v'. split; [exact E|]. split; [exact E'|]. split.
  - intros Ev. exact (same_contents hash lc lg fuel rows cols c O HX (appended es c) (appended es' (renamed name c)) st st' v v' _ _ Tr Tr' Ch Ch' HF Ev).
  - apply (same_identifier hash lc lg fuel rows cols c Hlg O HX (appended es c) (appended es' (renamed name c)) st st' v v' _ _ Tr Tr' Ch Ch');
      try assumption; (eapply functional_incl; [|exact HF]); [apply incl_appl, incl_refl|apply incl_appr, incl_refl].
Qed.

(** ** C55 *)

(** Two histories, with different splits into appends, commits, reloads, other variables,
    coordinates, orders of concurrent reads and stores to start from. A variable of the
    one and a variable of the other with the same configuration, possibly another name,
    have the same identifier exactly if the same data were appended to them. *)
Theorem C55_identifiers : forall hash lc lg rows cols order order' fuel fuel' N N' coords coords' es es' st0 st0' st st' d d' c name,
  setting hash lg order rows cols N coords -> valid lc fuel rows cols N es ->
  setting hash lg order' rows cols N' coords' -> valid lc fuel' rows cols N' es' ->
  written st0 -> addressed hash st0 -> written st0' -> addressed hash st0' ->
  run hash lc lg order fuel (dataset_new coords rows cols) es st0 = (st, Ok d) ->
  run hash lc lg order' fuel' (dataset_new coords' rows cols) es' st0' = (st', Ok d') ->
  functional (st ++ st') ->
  In c (configs es) -> In (renamed name c) (configs es') -> keeps_exactly c ->
  exists v v', find_var (cf_name c) (ds_vars d) = Some v /\ find_var name (ds_vars d') = Some v' /\
    (va_cid v = va_cid v' <->
     same_data rows cols (cf_type c) (length_appended es c) (length_appended es' (renamed name c)) (appended es c) (appended es' (renamed name c))).
Proof.
  intros hash lc lg rows cols order order' fuel fuel' N N' coords coords' es es' st0 st0' st st' d d' c name HS HV HS' HV' W0 A0 W0' A0' E E' HF Hc Hc' HX.
  assert (F : functional st) by (eapply functional_incl; [|exact HF]; apply incl_appl, incl_refl).
  assert (F' : functional st') by (eapply functional_incl; [|exact HF]; apply incl_appr, incl_refl).
  pose proof (run_result hash lc lg order fuel rows cols N coords es HS HV st0) as R. pose proof (run_written hash lc lg order fuel rows cols N coords es HS HV st0) as W.
  pose proof (keyed_run hash lc lg order fuel (dataset_new coords rows cols) es st0 A0) as A. rewrite E in R, W, A. cbn [fst snd] in R, W, A.
  pose proof (run_result hash lc lg order' fuel' rows cols N' coords' es' HS' HV' st0') as R'. pose proof (run_written hash lc lg order' fuel' rows cols N' coords' es' HS' HV' st0') as W'.
  pose proof (keyed_run hash lc lg order' fuel' (dataset_new coords' rows cols) es' st0' A0') as A'. rewrite E' in R', W', A'. cbn [fst snd] in R', W', A'.
  destruct (R F) as (x & Ex & HI). injection Ex as <-. destruct (R' F') as (x & Ex & HI'). injection Ex as <-.
  apply (identifiers hash lc lg fuel fuel' rows cols N N' coords coords' es es' st st' d d' c name); auto. exact (se_log2 _ _ _ _ _ _ _ HS).
Qed.

(** In any session, with calls that fail and crashes, every object was stored under the hash
    of its bytes, wherever the last call stopped. *)
Theorem C55_addressed : forall hash lc lg order fuel l,
  let x := run_session hash lc lg order fuel session_start l in
  (forall c b, In (c, b) (se_ever x) -> c = hash b) /\ (forall c b, In (c, b) (se_store x) -> c = hash b).
Proof.
  intros hash lc lg order fuel l x.
  assert (H : addressed hash (se_ever x) /\ addressed hash (se_store x)).
  { unfold x, run_session. clear x. assert (H : addressed hash (se_ever session_start) /\ addressed hash (se_store session_start)) by (split; constructor).
    revert H. generalize session_start. induction l as [|a l IH]; intros x (X1 & X2); cbn [fold_left]; [auto|]. apply IH. clear IH.
    destruct a as [co r c|c|i e|n]; cbn [run_action].
    - auto.
    - destruct (get_dataset (se_store x) c); auto.
    - destruct (nth_error (se_open x) i) as [d|]; [|auto]. pose proof (keyed_event hash lc lg order fuel d e (se_store x) X2) as K.
      destruct (run_event hash lc lg order fuel d e (se_store x)) as [st r]. cbn [fst se_ever se_store] in *. split; [|exact K].
      apply addressed_app. split; [exact X1|]. rewrite <- (firstn_skipn (length (se_store x)) st) in K. apply addressed_app in K. exact (proj2 K).
    - cbn [se_ever se_store]. split; [exact X1|]. rewrite <- (firstn_skipn n (se_store x)) in X2. apply addressed_app in X2. exact (proj1 X2). }
  split; intros c b Hb; [apply (addressed_in hash (se_ever x))|apply (addressed_in hash (se_store x))]; tauto.
Qed.

(** What is known of a dataset in use with a valid story. *)
Lemma session_dataset hash lc lg rows cols order fuel M C S l i d coords es N : limits hash lc order M C S -> Forall (action_ok C S) l -> all_fit M hash lc lg order fuel session_start l ->
  let x := run_session hash lc lg order fuel session_start l in functional (se_ever x) -> nth_error (se_open x) i = Some d ->
  nth_error (to_open (run_told hash lc lg order fuel told_start l)) i = Some (Some (mkStory coords rows cols es)) ->
  setting hash lg order rows cols N coords -> valid lc fuel rows cols N es ->
  inv hash lc lg rows cols coords es (se_store x) d es /\ written (se_store x) /\ addressed hash (se_store x) /\ incl (se_store x) (se_ever x).
Proof.
  intros [L1 L2 L3 L4 L5] HO HB x HF Hd Ht HS HV.
  pose proof (good_session hash lc lg order fuel M C S L1 L2 L3 L5 L4 l session_start HF HO HB (good_start M C S)) as [G1 G2 _ _].
  destruct (telling_session hash lc lg order fuel l told_start HF (telling_start hash lc lg order fuel)) as [[T1 T2 T3 T4] E].
  change (to_session told_start) with session_start in E. fold x in E. rewrite E in T1, T2, T3, T4.
  destruct (Forall2_nth_error_l _ _ _ _ _ T2 Hd) as (o & Ho & s & -> & Hs). rewrite Ht in Ho. injection Ho as <-.
  specialize (Hs N []). cbn [sy_coords sy_rows sy_cols sy_events] in Hs. rewrite app_nil_r in Hs. specialize (Hs HS HV).
  split; [exact Hs|]. split; [apply laid_written; exact G1|]. split; [|exact T1].
  apply Forall_forall. intros [ci b] Hb. exact (proj2 (C55_addressed hash lc lg order fuel l) ci b Hb).
Qed.

(** The same for datasets in use in two sessions (which may be the same), each with
    what the session did before, to this dataset and others. *)
Theorem C55_sessions : forall hash lc lg order order' fuel fuel' M M' C C' S S' l l',
  limits hash lc order M C S -> Forall (action_ok C S) l -> all_fit M hash lc lg order fuel session_start l ->
  limits hash lc order' M' C' S' -> Forall (action_ok C' S') l' -> all_fit M' hash lc lg order' fuel' session_start l' ->
  let x := run_session hash lc lg order fuel session_start l in
  let x' := run_session hash lc lg order' fuel' session_start l' in functional (se_ever x ++ se_ever x') ->
  forall i i' d d' coords coords' rows cols es es' N N' c name,
  nth_error (se_open x) i = Some d -> nth_error (se_open x') i' = Some d' ->
  nth_error (to_open (run_told hash lc lg order fuel told_start l)) i = Some (Some (mkStory coords rows cols es)) ->
  nth_error (to_open (run_told hash lc lg order' fuel' told_start l')) i' = Some (Some (mkStory coords' rows cols es')) ->
  setting hash lg order rows cols N coords -> valid lc fuel rows cols N es ->
  setting hash lg order' rows cols N' coords' -> valid lc fuel' rows cols N' es' ->
  In c (configs es) -> In (renamed name c) (configs es') -> keeps_exactly c ->
  exists v v', find_var (cf_name c) (ds_vars d) = Some v /\ find_var name (ds_vars d') = Some v' /\
    (va_cid v = va_cid v' <->
     same_data rows cols (cf_type c) (length_appended es c) (length_appended es' (renamed name c)) (appended es c) (appended es' (renamed name c))).
Proof.
  intros hash lc lg order order' fuel fuel' M M' C C' S S' l l' HL HO HB HL' HO' HB' x x' HF i i' d d' coords coords' rows cols es es' N N' c name Hd Hd' Ht Ht' HS HV HS' HV' Hc Hc' HX.
  assert (F : functional (se_ever x)) by (eapply functional_incl; [|exact HF]; apply incl_appl, incl_refl).
  assert (F' : functional (se_ever x')) by (eapply functional_incl; [|exact HF]; apply incl_appr, incl_refl).
  destruct (session_dataset hash lc lg rows cols order fuel M C S l i d coords es N) as (I1 & W1 & A1 & N1); auto. destruct (session_dataset hash lc lg rows cols order' fuel' M' C' S' l' i' d' coords' es' N') as (I2 & W2 & A2 & N2); auto.
  apply (identifiers hash lc lg fuel fuel' rows cols N N' coords coords' es es' (se_store x) (se_store x') d d' c name); auto; [exact (se_log2 _ _ _ _ _ _ _ HS)|].
  eapply functional_incl; [|exact HF]. intros p Hp. apply in_app_or in Hp. apply in_or_app. destruct Hp; [left; apply N1|right; apply N2]; assumption.
Qed.

(** ** Examples *)

(** Seven instants of 2 by 2, appended at once, or in three parts, with commits and
    another variable in between, under another name. *)
Definition ex_cells (t r c : nat) : Z := (Z.of_nat ((3 + 7 * t + 3 * r * t + 5 * c) mod 11) - 4)%Z.
Definition ex_slice (t n : nat) : array3 Z := mkArray3 (n, 2, 2) (fun i r c => ex_cells (t + i) r c).
Definition ex_one : config := mkConfig [97]%N None 2 2 [1] I32.
Definition ex_two : config := mkConfig [98]%N None 2 2 [1] I32.
Definition ex_other : config := mkConfig [99]%N None 3 1 [1] I32.
Definition ex_once : list event := [Add ex_one; Append I32 [97]%N (ex_slice 0 7)].
Definition ex_parts : list event :=
  [Add ex_other; Add ex_two; Append I32 [98]%N (ex_slice 0 1); Commit; Append I32 [98]%N (ex_slice 1 3); Append I32 [99]%N (ex_slice 5 2); Reload;
   Append I32 [98]%N (ex_slice 4 3)].
Lemma ex_lone c : In c [ex_one; ex_other; ex_two] -> config_ok ex_lc 4 2 2 c.
Proof.
  assert (HS : forall n, n <= 2 -> sizes_ok 2 ex_lc n (Nat.max 2 2)).
  { intros n Hn. apply (PropertiesSuper.C19_sizes 2 n 2 (le_n 2)). eapply fits32_le; [|exact (eq_refl : fits32 (2 * (2 * 2 * (2 * 2)) * 2))]. lia. }
  intros [<-|[<-|[<-|[]]]]; constructor; cbn [ex_one ex_two ex_other cf_name cf_round cf_span cf_chunk cf_levels cf_type length]; auto.
  1,6,11: split; [vm_compute; reflexivity|repeat constructor].
  1,2,5,6,9,10: split; [lia|reflexivity].
  1,3,5: split; [reflexivity|repeat constructor].
  all: apply (proj1 (PropertiesSuper.C19_levels 2 ex_lc (le_n 2))); reflexivity.
Qed.
Lemma ex_fits es c : cf_type c = I32 -> (forall name, Forall (fun a => exists t n, a = ex_slice t n) (batches I32 name es)) -> 
  forall T, chunks_fit ex_lc 2 2 c (appended es c) T.
Proof.
  destruct c as [name round span chunk levels t]. cbn [cf_type]. intros -> H T. apply C24_i32_always_fits. intros i r k _ _ _.
  assert (A : forall l, Forall (fun a => exists t n, a = ex_slice t n) l -> forall i, i32_range (joined 0%Z l i r k)).
  { clear. induction l as [|a l IH]; intros Hl i; cbn [joined]; [vm_compute; intuition discriminate|]. inversion Hl as [|y ys (t & n & ->) Hy]; subst.
    destruct (i <? instants3 (ex_slice t n)); [|apply IH; exact Hy]. cbn [ex_slice a3_at]. unfold ex_cells, i32_range.
    pose proof (Nat.mod_upper_bound (3 + 7 * (t + i) + 3 * r * (t + i) + 5 * k) 11 ltac:(discriminate)). split; lia. }
  exact (A _ (H name) i).
Qed.
(** A fork: the rest is appended at once, and, to the same dataset, in two parts. *)
Definition ex_fork : list action :=
  [New ex_coords 2 2; Do 0 (Add ex_one); Do 1 (Append I32 [97]%N (ex_slice 0 1)); Do 2 (Append I32 [97]%N (ex_slice 1 6));
   Do 2 (Append I32 [97]%N (ex_slice 1 3)); Do 4 (Append I32 [97]%N (ex_slice 4 3))].
Definition ex_long : list event := [Add ex_one; Append I32 [97]%N (ex_slice 0 1); Append I32 [97]%N (ex_slice 1 6)].
Definition ex_short : list event := [Add ex_one; Append I32 [97]%N (ex_slice 0 1); Append I32 [97]%N (ex_slice 1 3); Append I32 [97]%N (ex_slice 4 3)].
Lemma ex_use es : NoDup (map cf_name (configs es)) -> fits8 (length (configs es)) -> incl (configs es) [ex_one; ex_other; ex_two] -> appends_to 2 2 [] es ->
  (forall name, Forall (fun a => exists t n, a = ex_slice t n) (batches I32 name es)) -> forallb (fun c => length_appended es c <=? 1000) [ex_one; ex_other; ex_two] = true ->
  valid ex_lc 4 2 2 1000 es.
Proof.
  intros H1 H2 H3 H4 H5 H6. constructor.
  - exact H1.
  - exact H2.
  - apply Forall_forall. intros c Hc. apply ex_lone, H3, Hc.
  - exact (appends_to_all 2 2 es [] H4).
  - intros c Hc. apply H3 in Hc. rewrite forallb_forall in H6. split; [apply Nat.leb_le, H6, Hc|].
    intros before after _. apply ex_fits; [destruct Hc as [<-|[<-|[<-|[]]]]; reflexivity|exact H5].
Qed.
Lemma ex_valid es : In es [ex_once; ex_parts; ex_long; ex_short] -> valid ex_lc 4 2 2 1000 es.
Proof.
  intros [<-|[<-|[<-|[<-|[]]]]]; apply ex_use; unfold ex_once, ex_parts, ex_long, ex_short.
  1,7,13,19: cbn [configs map cf_name ex_one ex_two ex_other]; repeat constructor; cbn; intuition discriminate.
  1,6,11,16: reflexivity.
  1,5,9,13: intros c Hc; cbn in Hc |- *; tauto.
  1,4,7,10: cbn [appends_to app];
    repeat match goal with
    | |- (exists c, _) /\ _ => split
    | |- exists c, _ => first [exists ex_one; cbn; now auto 10 | exists ex_two; cbn; now auto 10 | exists ex_other; cbn; now auto 10]
    | |- True => exact Logic.I
    end.
  1,3,5,7: intros name; cbn [batches as_type];
    repeat match goal with |- context [bytes_eqb ?a ?b] => destruct (bytes_eqb a b) end; repeat constructor; eauto.
  all: vm_compute; reflexivity.
Qed.
Lemma ex_set : setting ex_hash ex_lg (@rev call) 2 2 1000 ex_coords.
Proof. destruct ex_setting as [S1 S2 SL S3 S4 S5 S6]. constructor; try assumption; (split; [lia|reflexivity]). Qed.

Definition stored_once : store * res dataset := run ex_hash ex_lc ex_lg (@rev call) 4 (dataset_new ex_coords 2 2) ex_once [].
Definition stored_parts : store * res dataset := run ex_hash ex_lc ex_lg (@rev call) 4 (dataset_new ex_coords 2 2) ex_parts [].
Definition is_ok {A} (r : res A) : bool := match r with Ok _ => true | _ => false end.
Lemma ex_same : same_data 2 2 I32 (length_appended ex_once ex_one) (length_appended ex_parts (renamed [98]%N ex_one))
  (appended ex_once ex_one) (appended ex_parts (renamed [98]%N ex_one)).
Proof.
  split; [vm_compute; reflexivity|]. intros i r k Hi Hr Hk. change (length_appended ex_once ex_one) with 7 in Hi.
  destruct i as [|[|[|[|[|[|[|i]]]]]]]; [| | | | | | |lia]; reflexivity.
Qed.
Example C55_identifiers_example : setting ex_hash ex_lg (@rev call) 2 2 1000 ex_coords /\ valid ex_lc 4 2 2 1000 ex_once /\ valid ex_lc 4 2 2 1000 ex_parts /\
  is_ok (snd stored_once) = true /\ is_ok (snd stored_parts) = true /\ functional (fst stored_once ++ fst stored_parts) /\
  In ex_one (configs ex_once) /\ In (renamed [98]%N ex_one) (configs ex_parts) /\ keeps_exactly ex_one /\
  same_data 2 2 I32 (length_appended ex_once ex_one) (length_appended ex_parts (renamed [98]%N ex_one)) (appended ex_once ex_one) (appended ex_parts (renamed [98]%N ex_one)) /\
  length (fst stored_once) = 15 /\ length (fst stored_parts) = 27.
Proof.
  split; [exact ex_set|]. split; [apply ex_valid; cbn; auto|]. split; [apply ex_valid; cbn; auto|]. split; [vm_compute; reflexivity|]. split; [vm_compute; reflexivity|].
  split; [apply functional_checked; vm_compute; reflexivity|]. split; [cbn; auto|]. split; [cbn; auto|]. split; [exact Logic.I|]. split; [exact ex_same|].
  split; vm_compute; reflexivity.
Qed.

Definition ex_forked : session := run_session ex_hash ex_lc ex_lg (@rev call) 4 session_start ex_fork.
Definition ex_told_fork : told := run_told ex_hash ex_lc ex_lg (@rev call) 4 told_start ex_fork.
Example C55_sessions_example : limits ex_hash ex_lc (@rev call) 1000 2 7 /\ Forall (action_ok 2 7) ex_fork /\
  all_fit 1000 ex_hash ex_lc ex_lg (@rev call) 4 session_start ex_fork /\ functional (se_ever ex_forked ++ se_ever ex_forked) /\ length (se_open ex_forked) = 6 /\
  nth_error (to_open ex_told_fork) 3 = Some (Some (mkStory ex_coords 2 2 ex_long)) /\ nth_error (to_open ex_told_fork) 5 = Some (Some (mkStory ex_coords 2 2 ex_short)) /\
  setting ex_hash ex_lg (@rev call) 2 2 1000 ex_coords /\ valid ex_lc 4 2 2 1000 ex_long /\ valid ex_lc 4 2 2 1000 ex_short /\
  same_data 2 2 I32 (length_appended ex_long ex_one) (length_appended ex_short (renamed [97]%N ex_one)) (appended ex_long ex_one) (appended ex_short (renamed [97]%N ex_one)).
Proof.
  split; [exact ex_limits|]. split.
  { assert (HD : forall i t n, action_ok 2 7 (Do i (Append I32 [97]%N (ex_slice t n)))).
    { intros i t n. cbn [action_ok event_ok data_ok ex_slice a3_shape value_ok a3_at]. split; [lia|]. split; [lia|]. intros j r k _ _ _. unfold ex_cells, i64_range, two63.
      pose proof (Nat.mod_upper_bound (3 + 7 * (t + j) + 3 * r * (t + j) + 5 * k) 11 ltac:(discriminate)). split; lia. }
    unfold ex_fork. repeat apply Forall_cons; try exact (Forall_nil _); try apply HD.
    - split; [destruct ex_setting as [_ _ _ _ _ _ H]; exact H|lia].
    - cbn [action_ok event_ok ex_one cf_name cf_round cf_span cf_chunk cf_levels length].
      repeat match goal with |- _ /\ _ => split end; try exact Logic.I; try reflexivity; try lia; repeat constructor; vm_compute; reflexivity. }
  split; [apply fit_run_ok; vm_compute; reflexivity|]. split; [apply functional_checked; vm_compute; reflexivity|]. split; [vm_compute; reflexivity|].
  split; [vm_compute; reflexivity|]. split; [vm_compute; reflexivity|]. split; [exact ex_set|]. split; [apply ex_valid; cbn; auto|]. split; [apply ex_valid; cbn; auto|].
  split; [vm_compute; reflexivity|]. intros i r k Hi Hr Hk. change (length_appended ex_long ex_one) with 7 in Hi.
  destruct i as [|[|[|[|[|[|[|i]]]]]]]; [| | | | | | |lia]; reflexivity.
Qed.

(** With rounding it is different: what was appended before is read back rounded, and the
    number of fractional bits of the chunk is chosen from that. 17/64 and 1, rounded to 4
    bits, are stored with 4 bits if they are appended together; appended one after the
    other, they are stored with 2. The values read are the same. *)
Definition ex_round : config := mkConfig [114]%N (Some 4) 2 2 [1] F64.
Definition ex_half (t : nat) : f64 := if t =? 0 then fl64 17 (-6) else fl64 1 0.
Definition ex_fine (t n : nat) : array3 f64 := mkArray3 (n, 2, 2) (fun i _ _ => ex_half (t + i)).
Theorem C55_rounding_refuted :
  exists st1 d1 v1 m1 st2 d2 v2 m2,
    run ex_hash ex_lc ex_lg (@rev call) 4 (dataset_new ex_coords 2 2) [Add ex_round; Append F64 [114]%N (ex_fine 0 2)] [] = (st1, Ok d1) /\
    run ex_hash ex_lc ex_lg (@rev call) 4 (dataset_new ex_coords 2 2) [Add ex_round; Append F64 [114]%N (ex_fine 0 1); Append F64 [114]%N (ex_fine 1 1)] [] = (st2, Ok d2) /\
    functional (st1 ++ st2) /\
    find_var [114]%N (ds_vars d1) = Some v1 /\ var_data (dt_f64 ex_lg) st1 v1 = Ok m1 /\
    find_var [114]%N (ds_vars d2) = Some v2 /\ var_data (dt_f64 ex_lg) st2 v2 = Ok m2 /\
    va_cid v1 <> va_cid v2 /\
    (forall r c, r < 2 -> c < 2 -> reads_num (arr_get reader_f64 st1 10 m1 0 r c) (fl64 1 (-2)) = true /\ reads_num (arr_get reader_f64 st2 10 m2 0 r c) (fl64 1 (-2)) = true /\
      reads_num (arr_get reader_f64 st1 10 m1 1 r c) (fl64 1 0) = true /\ reads_num (arr_get reader_f64 st2 10 m2 1 r c) (fl64 1 0) = true).
Proof.
  eexists; eexists; eexists; eexists; eexists; eexists; eexists; eexists.
  split; [vm_compute; reflexivity|]. split; [vm_compute; reflexivity|].
  split; [apply functional_checked; vm_compute; reflexivity|].
  split; [reflexivity|]. split; [vm_compute; reflexivity|]. split; [reflexivity|]. split; [vm_compute; reflexivity|].
  split; [vm_compute; discriminate|].
  intros r c Hr Hc. destruct r as [|[|r]]; [| |lia]; (destruct c as [|[|c]]; [| |lia]); repeat split; vm_compute; reflexivity.
Qed.

Print Assumptions C55_identifiers.
Print Assumptions C55_addressed.
Print Assumptions C55_sessions.
Print Assumptions C55_rounding_refuted.
