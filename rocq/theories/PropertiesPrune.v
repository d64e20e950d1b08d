(** * A search loads only sub-arrays that can hold a match (C61) *)
From Coq Require Import ZArith.
From Flocq Require Import Core.Core IEEE754.BinarySingleNaN.
From Verif Require Import Base BaseFacts Spec GeomModel GeomProofs BitmapModel DacModel StreamModel StreamProofs ChunkModel
  NodeModel NodeProofs SuperModel SuperViews SuperProofs SuperInt ArrayModel ArrayProofs FloatModel DatasetModel DatasetProofs AppendProofs HistoryModel
  KindProofs HistoryProofs CanonProofs RequestModel RequestProofs RequestReach PruneProofs PruneTree.
From Verif Require PropertiesSuper PropertiesFixed PropertiesFloat PropertiesNode PropertiesDataset PropertiesCanon PropertiesRequests.
Import PropertiesFixed PropertiesFloat PropertiesNode PropertiesDataset PropertiesCanon PropertiesRequests.
Arguments Nat.pow : simpl never.
Open Scope nat_scope.

(** ** Specification *)

(** An object that a search asks for is a span or a chunk, which the spans of the array name
    ([indexed], PruneTree.v); or it is asked for by gets of two cells of the array at one of
    the instants searched, of which the first is not above the bounds and the second is not
    below them. Searching arrays of floats is not written: [todo!()], mmarray.rs 407-417. *)
Definition search_needs (t : vtype) (st : store) (order : list call -> list call) (m : mmstruct) (T rows cols : nat) : (nat -> nat -> nat -> carrier t) -> Prop :=
  match t with
  | I32 | I64 => fun g => forall fuel b lower upper x,
      c_start b < c_end b <= T -> c_top b < c_bottom b <= rows -> c_left b < c_right b <= cols -> (lower <= upper)%Z ->
      In x (asked st (question_asks (reader_of I64) fuel order (QSearch m b lower upper))) ->
      indexed st m x \/
      exists t r1 c1 r2 c2, c_start b <= t < c_end b /\ (r1 < rows /\ c1 < cols) /\ (r2 < rows /\ c2 < cols) /\ (g t r1 c1 <= upper)%Z /\ (lower <= g t r2 c2)%Z /\
        In x (asked st (question_asks (reader_of I64) fuel order (QGet m t r1 c1))) /\ In x (asked st (question_asks (reader_of I64) fuel order (QGet m t r2 c2)))
  | F32 | F64 => fun _ => True
  end.
(** At each instant searched all values are below the bounds, or all are above them. *)
Definition out_of_bounds (g : nat -> nat -> nat -> Z) (first end_ rows cols : nat) (lower upper : Z) : Prop :=
  forall t, first <= t < end_ -> (forall r c, r < rows -> c < cols -> (g t r c < lower)%Z) \/ (forall r c, r < rows -> c < cols -> (upper < g t r c)%Z).
Definition skips_chunks (t : vtype) (st : store) (order : list call -> list call) (m : mmstruct) (T rows cols : nat) : (nat -> nat -> nat -> carrier t) -> Prop :=
  match t with
  | I32 | I64 => fun g => forall fuel b lower upper x,
      c_start b < c_end b <= T -> c_top b < c_bottom b <= rows -> c_left b < c_right b <= cols -> (lower <= upper)%Z ->
      out_of_bounds g (c_start b) (c_end b) rows cols lower upper ->
      In x (asked st (question_asks (reader_of I64) fuel order (QSearch m b lower upper))) -> indexed st m x
  | F32 | F64 => fun _ => True
  end.

(** ** Proofs *)
Lemma skims_needs t st order m T rows cols (g : nat -> nat -> nat -> carrier t) : mm_shape m = Ok (T, rows, cols) ->
  match t return (nat -> nat -> nat -> carrier t) -> Prop with I32 | I64 => fun g => skims st m T rows cols g | _ => fun _ => True end g ->
  search_needs t st order m T rows cols g.
Proof.
  intros HS. assert (G : forall g, skims st m T rows cols g -> search_needs I64 st order m T rows cols g).
  { clear g. intros g HK fuel b lower upper x H1 H2 H3 HL H. cbn [question_asks] in H. apply asked_pure in H. destruct H as ([] & E & H).
    apply asked_then in H. destruct H as [H|(l & _ & [])].
    apply HK in H; [|unfold cells_in; lia|lia..]. destruct H as [H|(t' & r1 & c1 & r2 & c2 & Ht & P1 & P2 & L1 & L2 & HA)]; [auto|]. right.
    exists t', r1, c1, r2, c2. rewrite Z.max_r in L1 by exact HL. rewrite Z.min_l in L2 by exact HL. repeat (split; [assumption|]).
    assert (A : forall r c, r < rows -> c < cols -> check_bounds m t' r c = Ok tt).
    { intros r c Hr Hc. unfold check_bounds. rewrite HS. cbn [bind]. destruct (Nat.leb_spec T t'), (Nat.leb_spec rows r), (Nat.leb_spec cols c); cbn [orb]; try reflexivity; lia. }
    cbn [question_asks]. split; (eapply asked_right; [apply A; [apply P1 || apply P2|apply P1 || apply P2]|]); apply asked_left; apply HA. }
  destruct t; cbn [search_needs]; try exact (fun _ => Logic.I); apply G.
Qed.
Lemma needs_skips t st order m T rows cols (g : nat -> nat -> nat -> carrier t) : search_needs t st order m T rows cols g -> skips_chunks t st order m T rows cols g.
Proof.
  assert (G : forall g, search_needs I64 st order m T rows cols g -> skips_chunks I64 st order m T rows cols g).
  { clear g. intros g HN fuel b lower upper x H1 H2 H3 HL HO H. destruct (HN fuel b lower upper x H1 H2 H3 HL H) as [HI|(t' & r1 & c1 & r2 & c2 & Ht & [R1 C1] & [R2 C2] & L1 & L2 & _)]; [exact HI|].
    destruct (HO t' Ht) as [X|X]; [specialize (X r2 c2 R2 C2)|specialize (X r1 c1 R1 C1)]; cbn [carrier] in *; lia. }
  destruct t; cbn [skips_chunks search_needs]; try exact (fun _ => Logic.I); apply G.
Qed.

(** ** C61 *)

(** Variables of valid histories, in the final store and every larger one. *)
Theorem C61_search_needs : forall hash lc lg order fuel rows cols N coords es st0 st d c,
  setting hash lg order rows cols N coords -> valid lc fuel rows cols N es ->
  run hash lc lg order fuel (dataset_new coords rows cols) es st0 = (st, Ok d) -> functional st -> In c (configs es) ->
  exists v m, find_var (cf_name c) (ds_vars d) = Some v /\
    forall st', incl st st' -> functional st' -> var_data (dt_of lg (cf_type c)) st' v = Ok m /\
      search_needs (cf_type c) st' order m (length_appended es c) rows cols (appended es c).
Proof.
  intros hash lc lg order fuel rows cols N coords es st0 st d c HS HV E HF Hc.
  destruct (run_result hash lc lg order fuel rows cols N coords es HS HV st0) as (x & Ex & HI); rewrite E in *; cbn [fst snd] in *; [exact HF|]. injection Ex as <-.
  destruct (variable_of _ _ _ _ _ _ _ _ _ _ _ _ HV HI Hc) as (v & Ev & O & Tr & _).
  pose proof (tree_holds hash lc lg fuel rows cols c O _ _ _ _ Tr) as (m & depth & HH).
  destruct Tr as (e & He & W & m1 & h & G & HN & Hfine). pose proof O as [C1 C2 [C3 C3'] [C4 C4'] C5 C6 C7 C8].
  assert (m1 = m).
  { destruct (HH st depth (incl_refl _) HF (le_n _)) as (Vd & _). unfold var_data in Vd. rewrite G in Vd. cbn [bind] in Vd. unfold arr_new in Vd.
    destruct (encoding_eqb _ _); [congruence|discriminate]. }
  subst m1. exists v, m. split; [exact Ev|]. intros st' HI' HF'. destruct (HH st' depth HI' HF' (le_n _)) as (Vd & _). split; [exact Vd|].
  apply (node_incl _ _ _ _ _ _ _ _ HI' HF') in HN. apply skims_needs; [eapply node_shape; exact HN|].
  assert (S : forall enc0 (V : (nat -> nat -> nat -> Z) -> store -> nat -> mmstruct -> Prop) (g : nat -> nat -> nat -> Z),
    (forall g st n m, V g st n m -> prunes st m n rows cols g) ->
    DatasetProofs.node rows cols (cf_chunk c) (cf_span c) enc0 (leaf_ok V g) h st' 0 (length_appended es c) e m -> skims st' m (length_appended es c) rows cols g).
  { intros enc0 V g HV' HN'. apply (node_skims rows cols (cf_chunk c) (cf_span c) enc0 (leaf_ok V g) g C4 C3) with (2 := HF') in HN'; [exact HN'|].
    intros st1 off n m1 H. exact (HV' _ _ _ _ H). }
  revert HN. generalize (appended es c). generalize (length_appended es c) as T, S. clear. intros T S g HN.
  destruct (cf_type c); try exact Logic.I; (eapply S; [|exact HN]); intros g1 st1 n1 m1 (_ & (_ & H) & _); exact H.
Qed.

(** If all values are out of the bounds, only spans and chunks are asked for, and no
    sub-array of a chunk. *)
Theorem C61_nothing_to_find : forall hash lc lg order fuel rows cols N coords es st0 st d c,
  setting hash lg order rows cols N coords -> valid lc fuel rows cols N es ->
  run hash lc lg order fuel (dataset_new coords rows cols) es st0 = (st, Ok d) -> functional st -> In c (configs es) ->
  exists v m, find_var (cf_name c) (ds_vars d) = Some v /\
    forall st', incl st st' -> functional st' -> var_data (dt_of lg (cf_type c)) st' v = Ok m /\
      skips_chunks (cf_type c) st' order m (length_appended es c) rows cols (appended es c).
Proof.
  intros hash lc lg order fuel rows cols N coords es st0 st d c HS HV E HF Hc.
  destruct (C61_search_needs hash lc lg order fuel rows cols N coords es st0 st d c HS HV E HF Hc) as (v & m & Ev & H).
  exists v, m. split; [exact Ev|]. intros st' HI HF'. destruct (H st' HI HF') as [Vd HN]. split; [exact Vd|]. apply needs_skips. exact HN.
Qed.

(** ** Example *)

(** Rasters of 4 by 4 in sub-arrays of 2 by 2. The sub-array at the top left has small
    numbers, the one at the bottom right large ones, the others are uniform. *)
Definition ex_wide : config := mkConfig [97]%N None 2 2 [1; 1] I32.
Definition ex_far (t r c : nat) : Z := Z.of_nat (if r <? 2 then if c <? 2 then r + c + t else 5 else if c <? 2 then 7 else 50 + r + c).
Definition ex_apart : list event := [Add ex_wide; Append I32 [97]%N (mkArray3 (1, 4, 4) ex_far)].
Lemma ex_wide_ok : config_ok ex_lc 4 4 4 ex_wide.
Proof.
  constructor; cbn [ex_wide cf_name cf_round cf_span cf_chunk cf_levels cf_type length]; auto.
  - split; [vm_compute; reflexivity|repeat constructor].
  - split; [lia|reflexivity].
  - split; [lia|reflexivity].
  - split; [reflexivity|repeat constructor].
  - apply (proj1 (proj2 (PropertiesSuper.C19_levels 2 ex_lc (le_n 2)))). reflexivity.
  - apply (PropertiesSuper.C19_sizes 2 2 4 (le_n 2)). reflexivity.
Qed.
Lemma ex_far_fits T : chunks_fit ex_lc 4 4 ex_wide (appended ex_apart ex_wide) T.
Proof.
  unfold ex_wide at 1. apply C24_i32_always_fits. intros i r k _ Hr Hk. change (appended ex_apart ex_wide i r k) with (if i <? 1 then ex_far i r k else 0%Z).
  destruct (Nat.ltb_spec i 1); [|vm_compute; intuition discriminate]. unfold ex_far, i32_range. destruct (r <? 2), (k <? 2); lia.
Qed.
Lemma ex_apart_valid : valid ex_lc 4 4 4 1000 ex_apart.
Proof.
  constructor.
  - repeat constructor. intros [].
  - reflexivity.
  - constructor; [exact ex_wide_ok|constructor].
  - apply (appends_to_all 4 4 ex_apart []). cbn [appends_to ex_apart app]. split; [|exact Logic.I]. exists ex_wide. cbn. auto 10.
  - intros c [<-|[]]. split; [apply Nat.leb_le; vm_compute; reflexivity|]. intros before after _. apply ex_far_fits.
Qed.
Lemma ex_apart_set : setting ex_hash ex_lg (@rev call) 4 4 1000 ex_coords.
Proof. destruct ex_setting as [S1 S2 SL S3 S4 S5 S6]. constructor; try assumption; (split; [lia|reflexivity]). Qed.

(** A search for large numbers asks for the chunk, the links and one sub-array, which is not
    the one that a get at the top left asks for. A search for numbers that are larger still
    asks for the chunk. *)
Definition ex_looks (x : store * res dataset) : list nat * bool :=
  match get_mm (fst x) (root_of x) with
  | Ok m =>
      let ask q := asked (fst x) (question_asks reader_i32 4 (@rev call) q) in
      let all := mkCube 0 1 0 4 0 4 in
      let one := ask (QSearch m all 40 60) in
      ([length one; length (ask (QSearch m all 0 100)); length (ask (QSearch m all 60 100)); length (ask (QSearch m all 7 8))],
       existsb (fun c => existsb (cid_eqb c) one) (skipn 2 (ask (QGet m 0 0 0))))
  | _ => ([], true)
  end.
Notation ex_made := (run ex_hash ex_lc ex_lg (@rev call) 4 (dataset_new ex_coords 4 4) ex_apart []).
Example C61_example : exists d, setting ex_hash ex_lg (@rev call) 4 4 1000 ex_coords /\ valid ex_lc 4 4 4 1000 ex_apart /\
  ex_made = (fst ex_made, Ok d) /\ functional (fst ex_made) /\ In ex_wide (configs ex_apart) /\
  ex_looks ex_made = ([3; 5; 1; 1], false) /\ out_of_bounds (appended ex_apart ex_wide) 0 1 4 4 60 100.
Proof.
  assert (F : functional (fst ex_made)) by (apply functional_checked; vm_compute; reflexivity).
  destruct (run_result ex_hash ex_lc ex_lg (@rev call) 4 4 4 1000 ex_coords ex_apart ex_apart_set ex_apart_valid [] F) as (d & E & _).
  exists d. split; [exact ex_apart_set|]. split; [exact ex_apart_valid|]. split; [rewrite <- E; apply surjective_pairing|]. split; [exact F|]. split; [left; reflexivity|].
  split; [vm_compute; reflexivity|]. intros t Ht. assert (t = 0) by lia. subst t. left. intros r c Hr Hc.
  change (appended ex_apart ex_wide 0 r c) with (ex_far 0 r c). unfold ex_far. destruct (r <? 2), (c <? 2); lia.
Qed.

Print Assumptions C61_search_needs.
Print Assumptions C61_nothing_to_find.
