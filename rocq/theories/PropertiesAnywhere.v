(** * C46 for sessions: the same calls give the same objects, identifiers and answers anywhere. *)
From Coq Require Import ZArith Permutation.
From Verif Require Import Base BaseFacts StreamModel NodeModel NodeProofs SuperModel ArrayModel FixedModel DatasetModel DatasetProofs HistoryModel HistoryProofs
  SessionModel SessionSpec SessionProofs FrameProofs.
From Verif Require PropertiesNode PropertiesSuper PropertiesDataset PropertiesListing PropertiesClosed PropertiesSession.
Import PropertiesNode PropertiesDataset PropertiesListing PropertiesClosed PropertiesSession.
Arguments Nat.pow : simpl never.
Open Scope nat_scope.

(** The same actions where the store begins with [k] other objects: a crash leaves these. *)
Definition after_others (k : nat) (a : action) : action := match a with Crash n => Crash (k + n) | _ => a end.
(** The session opens only what it has itself written, unless it is not in the store [st0] either. *)
Fixpoint opens_own hash lc lg order fuel (st0 : store) (x : session) (l : list action) : Prop :=
  match l with
  | [] => True
  | a :: l' => match a with Open c => has st0 c -> has (se_store x) c | _ => True end /\
      opens_own hash lc lg order fuel st0 (run_action hash lc lg order fuel x a) l'
  end.

(** With [st0] before it. *)
Definition behind (st0 : store) (x : session) : session := mkSession (st0 ++ se_store x) (st0 ++ se_ever x) (se_open x).

Section Behind.
  Variables (hash : bytes -> cid) (lc : nat -> nat) (lg : FixedModel.f64 -> nat) (order : list call -> list call) (fuel N C S : nat) (st0 : store).
  Hypothesis HL : limits hash lc order N C S.

  Lemma behind_action x a : functional (st0 ++ se_ever (run_action hash lc lg order fuel x a)) -> good N C S x -> good N C S (run_action hash lc lg order fuel x a) ->
    match a with Open c => has st0 c -> has (se_store x) c | _ => True end ->
    run_action hash lc lg order fuel (behind st0 x) (after_others (length st0) a) = behind st0 (run_action hash lc lg order fuel x a).
  Proof.
    intros HF [G1 G2 _ G4] [A1 A2 _ _] HO. destruct HL as [_ _ _ L4 L5].
    assert (HI : incl (st0 ++ se_store x) (st0 ++ se_ever (run_action hash lc lg order fuel x a))).
    { intros p Hp. apply in_app_or in Hp. apply in_or_app. destruct Hp as [Hp|Hp]; [left; exact Hp|right]. apply (ever_action hash lc lg order fuel x a), G2, Hp. }
    pose proof (functional_incl _ _ HI HF) as F0.
    destruct a as [co r c|c|i e|n]; cbn [after_others run_action behind se_store se_ever se_open] in *.
    - reflexivity.
    - replace (get_dataset (st0 ++ se_store x) c) with (get_dataset (se_store x) c); [destruct (get_dataset (se_store x) c); reflexivity|].
      destruct (store_get (se_store x) c) as [b|] eqn:E.
      { symmetry. apply get_dataset_frame; [|exact F0]. exists b. apply store_get_some, E. }
      unfold get_dataset, retrieve. rewrite E. destruct (store_get (st0 ++ se_store x) c) as [b|] eqn:E'; [exfalso|reflexivity].
      apply store_get_some in E'. apply in_app_or in E'. assert (Hc : has (se_store x) c) by (destruct E' as [E'|E']; [apply HO|]; exists b; exact E').
      destruct (has_got _ _ Hc) as (b' & Eb). congruence.
    - destruct (nth_error (se_open x) i) as [d|] eqn:Ed; [|reflexivity].
      assert (HD : filed (se_store x) d).
      { apply nth_error_In in Ed. rewrite Forall_forall in G4. destruct (G4 d Ed) as [Sd _]. intros v Hv.
        apply (sound_anchored lc N C S L5 L4 (se_store x) d Sd). cbn [refs]. apply in_or_app. left. apply in_map. exact Hv. }
      pose proof (framed_event hash lc lg order fuel d e (se_store x) HD) as FE. pose proof (mono_event hash lc lg order fuel d e (se_store x)) as (w & Ew).
      unfold framed in FE. destruct (run_event hash lc lg order fuel d e (se_store x)) as [st r]. cbn [fst snd se_store se_ever se_open] in *. subst st.
      assert (Fw : functional (st0 ++ (se_store x ++ w))).
      { eapply functional_incl; [|exact HF]. intros p Hp. apply in_app_or in Hp. apply in_or_app. destruct Hp as [Hp|Hp]; [left; exact Hp|right; apply A2, Hp]. }
      destruct (FE A1) as [_ FE2]; [eapply functional_incl; [|exact Fw]; apply incl_appr, incl_refl|]. rewrite (FE2 st0 Fw). unfold behind. cbn [se_store se_ever se_open]. f_equal.
      rewrite <- app_assoc. f_equal. f_equal. rewrite app_assoc.
      assert (K : forall a b : store, skipn (length a) (a ++ b) = b) by (intros a b; rewrite skipn_app, skipn_all, Nat.sub_diag; reflexivity). rewrite !K. reflexivity.
    - unfold behind. cbn [se_store se_ever se_open]. f_equal. rewrite firstn_app. replace (length st0 + n - length st0) with n by lia. rewrite firstn_all2 by lia. reflexivity.
  Qed.
  Lemma behind_session : forall l x, functional (st0 ++ se_ever (run_session hash lc lg order fuel x l)) -> Forall (action_ok C S) l ->
    all_fit N hash lc lg order fuel x l -> opens_own hash lc lg order fuel st0 x l -> good N C S x ->
    run_session hash lc lg order fuel (behind st0 x) (map (after_others (length st0)) l) = behind st0 (run_session hash lc lg order fuel x l).
  Proof.
    induction l as [|a l IH]; intros x HF HA HB HO HG; [reflexivity|]. inversion_clear HA as [|? ? Ha HA']. destruct HB as [Hb HB]. destruct HO as [Ho HO].
    unfold run_session in *. cbn [fold_left map] in *.
    assert (HF1 : functional (st0 ++ se_ever (run_action hash lc lg order fuel x a))).
    { eapply functional_incl; [|exact HF]. intros p Hp. apply in_app_or in Hp. apply in_or_app. destruct Hp as [Hp|Hp]; [left; exact Hp|right].
      apply (ever_session hash lc lg order fuel l), Hp. }
    assert (G1 : good N C S (run_action hash lc lg order fuel x a)).
    { destruct HL as [L1 L2 L3 L4 L5]. apply good_action; auto. eapply functional_incl; [|exact HF1]. apply incl_appr, incl_refl. }
    rewrite (behind_action x a HF1 HG G1 Ho). apply IH; assumption.
  Qed.
End Behind.

(** Run a session in an empty store. In a store that has anything else in it, the same
    session writes the same objects in the same order and has the same datasets, with the
    same identifiers, whichever of its calls fail, if no identifier stands for two objects. *)
Theorem C46_sessions : forall hash lc lg order fuel N C S l st0,
  limits hash lc order N C S -> Forall (action_ok C S) l -> all_fit N hash lc lg order fuel session_start l ->
  opens_own hash lc lg order fuel st0 session_start l ->
  let x := run_session hash lc lg order fuel session_start l in functional (st0 ++ se_ever x) ->
  run_session hash lc lg order fuel (mkSession st0 st0 []) (map (after_others (length st0)) l) =
    mkSession (st0 ++ se_store x) (st0 ++ se_ever x) (se_open x).
Proof.
  intros hash lc lg order fuel N C S l st0 HL HA HB HO x HF.
  pose proof (behind_session hash lc lg order fuel N C S st0 HL l session_start HF HA HB HO (good_start N C S)) as H.
  unfold behind in H. cbn [session_start se_store se_ever se_open] in H. rewrite !app_nil_r in H. exact H.
Qed.

Lemma opens_no_other hash lc lg order fuel st0 : forall l x, (forall c, In (Open c) l -> ~ has st0 c) -> opens_own hash lc lg order fuel st0 x l.
Proof.
  induction l as [|a l IH]; intros x H; cbn [opens_own]; [exact I|]. split; [|apply IH; intros c Hc; apply H; right; exact Hc].
  destruct a; try exact I. intros Hc. exfalso. apply (H c); [left; reflexivity|exact Hc].
Qed.

Lemma lacks_checked st c : forallb (fun p => negb (cid_eqb c (fst p))) st = true -> ~ has st c.
Proof. intros K (b & Hb). rewrite forallb_forall in K. specialize (K _ Hb). cbn [fst] in K. rewrite cid_eqb_refl in K. discriminate K. Qed.

(** The session of PropertiesSession.v, in a store with another object, and an object
    that the session itself writes. *)
Definition ex_others : store := [(ex_cid 1, [1; 2; 3]%N); nth 3 (se_store ex_begun) (ex_cid 2, [])].
Lemma ex_others_checked : (functional_check (ex_others ++ se_ever ex_session) && forallb (fun p => negb (cid_eqb (snd ex_committed) (fst p))) ex_others)%bool = true.
Proof. vm_compute. reflexivity. Qed.
Lemma ex_others_functional : functional (ex_others ++ se_ever ex_session).
Proof. apply functional_checked, (andb_prop _ _ ex_others_checked). Qed.
Lemma ex_others_disjoint : forallb (fun p => negb (cid_eqb (snd ex_committed) (fst p))) ex_others = true.
Proof. apply (andb_prop _ _ ex_others_checked). Qed.
Lemma ex_opens c : In (Open c) (ex_first ++ ex_rest) -> c = snd ex_committed.
Proof.
  unfold ex_first, ex_rest. generalize ex_committed. intros p Hc. cbn [app In] in Hc.
  repeat (destruct Hc as [Hc|Hc]; [first [discriminate Hc|injection Hc as <-; reflexivity]|]). destruct Hc.
Qed.
Example C46_sessions_example : opens_own ex_hash ex_lc ex_lg (@rev call) 4 ex_others session_start (ex_first ++ ex_rest) /\
  functional (ex_others ++ se_ever ex_session) /\ length ex_others = 2.
Proof.
  split; [|split; [exact ex_others_functional|reflexivity]]. apply opens_no_other. intros c Hc. apply ex_opens in Hc. rewrite Hc. apply lacks_checked. exact ex_others_disjoint.
Qed.

Print Assumptions C46_sessions.
