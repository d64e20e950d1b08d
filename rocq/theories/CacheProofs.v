(** * The cache keeps a list of objects, the most recently used first. *)
From Verif Require Import Base BaseFacts CacheModel CacheSpec.

Section Proofs.
  Context {K V : Type}.
  Variables (keqb : K -> K -> bool) (size : V -> nat).
  Hypothesis Heq : forall a b, keqb a b = true <-> a = b.
  Notation entry := (entry K V).
  Notation entries := (entries K V).
  Notation sum_sizes := (@CacheSpec.sum_sizes K V size).
  Notation fitting := (@CacheSpec.fitting K V size).
  Notation without := (@CacheSpec.without K V keqb).
  Notation found := (@CacheSpec.found K V keqb).
  Notation lru_get := (@CacheSpec.lru_get K V keqb size).
  Notation lru := (@CacheSpec.lru K V keqb size).
  Notation recent := (@CacheSpec.recent K keqb).

  Lemma keqb_refl k : keqb k k = true.
  Proof. apply Heq. reflexivity. Qed.
  Lemma keqb_neq a b : a <> b -> keqb a b = false.
  Proof. intros H. destruct (keqb a b) eqn:E; [|reflexivity]. apply Heq in E. contradiction. Qed.
  Lemma key_dec (a b : K) : {a = b} + {a <> b}.
  Proof. destruct (keqb a b) eqn:E; [left; apply Heq; exact E|right; intros ->; rewrite keqb_refl in E; discriminate]. Defined.

  (** ** Maps *)
  Lemma eget_take (m : emap (K := K) (V := V)) k k' : eget keqb (etake keqb m k) k' = if keqb k k' then None else eget keqb m k'.
  Proof.
    unfold eget, etake. induction m as [|[a e] m IH]; cbn [filter find fst snd]; [destruct (keqb k k'); reflexivity|].
    destruct (keqb k a) eqn:Ea; cbn [negb find fst snd].
    - apply Heq in Ea. subst a. rewrite IH. destruct (keqb k k') eqn:Ek; [reflexivity|].
      rewrite (keqb_neq k' k) by (intros ->; rewrite keqb_refl in Ek; discriminate). reflexivity.
    - destruct (keqb k' a) eqn:Ek; [|exact IH]. apply Heq in Ek. subst a. rewrite Ea. reflexivity.
  Qed.
  Lemma eget_put (m : emap (K := K) (V := V)) k e k' : eget keqb (eput keqb m k e) k' = if keqb k k' then Some e else eget keqb m k'.
  Proof.
    unfold eput. transitivity (if keqb k' k then Some e else eget keqb (etake keqb m k) k').
    - unfold eget. cbn [find fst snd]. destruct (keqb k' k); reflexivity.
    - rewrite eget_take. destruct (key_dec k k') as [->|N].
      + rewrite keqb_refl. reflexivity.
      + rewrite (keqb_neq k k' N), (keqb_neq k' k (fun E => N (eq_sym E))). reflexivity.
  Qed.
  Lemma eget_in (m : emap (K := K) (V := V)) k e : eget keqb m k = Some e -> In k (map fst m).
  Proof.
    unfold eget. destruct (find _ m) as [[a b]|] eqn:F; [|discriminate]. intros _. apply find_some in F. cbn [fst] in F. destruct F as [F1 F2].
    apply Heq in F2. subst a. apply in_map_iff. exists (k, b). auto.
  Qed.

  (** ** The linked list *)
  Definition first (l : list (K * V)) (less : option K) : option K := match l with [] => less | p :: _ => Some (fst p) end.
  Fixpoint final (l : list (K * V)) (more : option K) : option K := match l with [] => more | p :: l' => final l' (Some (fst p)) end.
  Fixpoint linked (m : emap) (more : option K) (l : list (K * V)) (less : option K) : Prop :=
    match l with
    | [] => True
    | p :: l' => eget keqb m (fst p) = Some (mkEntry (fst p) (snd p) more (first l' less) (size (snd p))) /\ linked m (Some (fst p)) l' less
    end.

  Lemma final_app l1 : forall l2 more, final (l1 ++ l2) more = final l2 (final l1 more).
  Proof. induction l1 as [|p l1 IH]; intros l2 more; cbn [app final]; [reflexivity|apply IH]. Qed.
  Lemma final_in l : forall k, exists x, final l (Some k) = Some x /\ (x = k /\ l = [] \/ In x (keys l)).
  Proof.
    induction l as [|p l IH]; intros k; cbn [final]; [exists k; auto|]. destruct (IH (fst p)) as (x & E & H). exists x. split; [exact E|].
    right. cbn [keys map In]. destruct H as [[-> _]|H]; [left; reflexivity|right; exact H].
  Qed.
  Lemma linked_app m l1 : forall more l2 less,
    linked m more (l1 ++ l2) less <-> linked m more l1 (first l2 less) /\ linked m (final l1 more) l2 less.
  Proof.
    induction l1 as [|p l1 IH]; intros more l2 less; cbn [app linked].
    - cbn [final]. tauto.
    - rewrite IH. replace (first (l1 ++ l2) less) with (first l1 (first l2 less)) by (destruct l1; reflexivity).
      cbn [final]. tauto.
  Qed.
  Lemma linked_frame m m' l : forall more less, (forall k, In k (keys l) -> eget keqb m' k = eget keqb m k) -> linked m more l less -> linked m' more l less.
  Proof.
    induction l as [|p l IH]; intros more less H; cbn [linked]; [trivial|]. intros [H1 H2]. split.
    - rewrite H by (left; reflexivity). exact H1.
    - apply IH; [|exact H2]. intros k Hk. apply H. right. exact Hk.
  Qed.
  Lemma linked_more m p l more more' less : linked m more (p :: l) less -> ~ In (fst p) (keys l) ->
    linked (eput keqb m (fst p) (mkEntry (fst p) (snd p) more' (first l less) (size (snd p)))) more' (p :: l) less.
  Proof.
    cbn [linked]. intros [H1 H2] Hn. split; [rewrite eget_put, keqb_refl; reflexivity|].
    eapply linked_frame; [|exact H2]. intros k Hk. rewrite eget_put, keqb_neq; [reflexivity|]. intros C; subst; contradiction.
  Qed.


  Record rep (s : entries) (l : list (K * V)) : Prop := {
    rp_nodup : NoDup (keys l);
    rp_links : linked (es_map s) None l None;
    rp_most : es_most s = first l None;
    rp_least : es_least s = final l None;
    rp_only : forall k, ~ In k (keys l) -> eget keqb (es_map s) k = None }.

  Lemma rep_new limit : rep (entries_new limit) [].
  Proof. constructor; cbn; auto. constructor. Qed.

  Lemma rep_length s l : rep s l -> length l <= length (es_map s).
  Proof.
    intros [H1 H2 _ _ _]. rewrite <- (map_length fst l), <- (map_length fst (es_map s)). apply NoDup_incl_length; [exact H1|].
    clear H1. revert H2. generalize (@None K) at 1. induction l as [|p l IH]; intros more; cbn [linked map]; [intros _ x []|].
    intros [H H2] x [<-|Hx]; [eapply eget_in; exact H|]. apply (IH _ H2 x Hx).
  Qed.
  Lemma rep_mid s l1 p l2 : rep s (l1 ++ p :: l2) ->
    eget keqb (es_map s) (fst p) = Some (mkEntry (fst p) (snd p) (final l1 None) (first l2 None) (size (snd p))).
  Proof. intros [_ H _ _ _]. apply linked_app in H. destruct H as [_ [H _]]. exact H. Qed.
  Lemma rep_none s l k : rep s l -> ~ In k (keys l) -> eget keqb (es_map s) k = None.
  Proof. intros H. apply (rp_only _ _ H). Qed.

  (** [push_most_recent] of a new key puts it first. *)
  Lemma push_rep s l k v more less : rep s l -> ~ In k (keys l) ->
    exists s', push_most_recent keqb s (mkEntry k v more less (size v)) = Ok s' /\ rep s' ((k, v) :: l) /\
      es_limit s' = es_limit s /\ es_size s' = es_size s.
  Proof.
    intros [H1 H2 H3 H4 H5] Hn. unfold push_most_recent. cbn [en_key]. rewrite H3. destruct l as [|p l]; cbn [first].
    - eexists. split; [reflexivity|]. split; [|split; reflexivity]. cbn [final] in H4. rewrite H4.
      constructor; cbn [es_map es_most es_least keys map fst snd linked first final last en_update].
      + constructor; [exact Hn|constructor].
      + split; [|exact I]. rewrite eget_put, keqb_refl. reflexivity.
      + reflexivity.
      + reflexivity.
      + intros k' Hk'. rewrite eget_put, keqb_neq by (intros ->; apply Hk'; left; reflexivity). apply H5. intros [].
    - rewrite keqb_neq by (intros E; apply Hn; left; exact E).
      destruct (rep_mid s [] p l) as [].
      { constructor; assumption. }
      pose proof (proj1 H2) as Hp. cbn [final] in *. rewrite Hp. cbn [unwrap bind].
      eexists. split; [reflexivity|]. split; [|split; reflexivity]. rewrite H4.
      cbn [keys map] in H1. apply NoDup_cons_iff in H1. destruct H1 as [Hp1 H1].
      assert (Nk : fst p <> k) by (intros E; apply Hn; left; exact E).
      constructor; cbn [es_map es_most es_least en_update en_key en_obj en_size en_less].
      + cbn [keys map fst]. constructor; [exact Hn|]. constructor; assumption.
      + change (linked (eput keqb (eput keqb (es_map s) (fst p) (mkEntry (fst p) (snd p) (Some k) (first l None) (size (snd p)))) k
                 (mkEntry k v None (Some (fst p)) (size v))) None ((k, v) :: p :: l) None).
        split; [cbn [fst snd first]; rewrite eget_put, keqb_refl; reflexivity|]. cbn [fst].
        match goal with |- ?g => match g with context [linked ?m] => change (linked m (Some k) (p :: l) None) end end.
        eapply (linked_frame (eput keqb (es_map s) (fst p) (mkEntry (fst p) (snd p) (Some k) (first l None) (size (snd p))))).
        * intros k' Hk'. rewrite eget_put, keqb_neq; [reflexivity|]. intros C; subst; contradiction.
        * apply (linked_more _ _ _ None). { exact H2. } exact Hp1.
      + reflexivity.
      + cbn [final fst]. destruct (final_in l (fst p)) as (x & Ex & _). rewrite Ex. reflexivity.
      + intros k' Hk'. cbn [keys map fst] in Hk'. rewrite !eget_put, !keqb_neq; [apply H5| |]; intros C; apply Hk'; subst; [right; exact C| | ]; cbn; tauto.
  Qed.

  Lemma NoDup_mid {A} (l1 l2 : list A) a : NoDup (l1 ++ a :: l2) -> NoDup (l1 ++ l2) /\ ~ In a (l1 ++ l2).
  Proof. intros H. split; [eapply NoDup_remove_1; exact H|apply NoDup_remove_2; exact H]. Qed.

  (** [remove] of a cached key takes it out of the list. *)
  Lemma remove_rep s l1 k v l2 : rep s (l1 ++ (k, v) :: l2) ->
    exists s' e, remove keqb s k = Ok (s', Some e) /\ rep s' (l1 ++ l2) /\
      e = mkEntry k v (final l1 None) (first l2 None) (size v) /\ es_limit s' = es_limit s /\ es_size s' = es_size s.
  Proof.
    intros HR. pose proof (rep_mid _ _ _ _ HR) as Hg. cbn [fst snd] in Hg. destruct HR as [H1 H2 H3 H4 H5].
    unfold keys in H1. rewrite map_app in H1. cbn [map fst] in H1. apply NoDup_mid in H1. destruct H1 as [H1 Hk]. rewrite <- map_app in H1, Hk.
    fold (keys (l1 ++ l2)) in H1, Hk.
    apply linked_app in H2. cbn [linked first fst snd] in H2. destruct H2 as [L1 [_ L2]].
    unfold remove. rewrite Hg. rewrite H3, H4.
    rewrite final_app. cbn [final fst].
    assert (Em : first (l1 ++ (k, v) :: l2) None = first l1 (Some k)) by (destruct l1; reflexivity). rewrite Em.
    cbn [en_less en_more en_key].
    set (m0 := etake keqb (es_map s) k).
    assert (F0 : forall k', k' <> k -> eget keqb m0 k' = eget keqb (es_map s) k').
    { intros k' N. unfold m0. rewrite eget_take, keqb_neq by congruence. reflexivity. }
    assert (Hk1 : ~ In k (keys l1)) by (intros C; apply Hk; unfold keys; rewrite map_app; apply in_or_app; left; exact C).
    assert (Hk2 : ~ In k (keys l2)) by (intros C; apply Hk; unfold keys; rewrite map_app; apply in_or_app; right; exact C).
    assert (L1' : linked m0 None l1 (Some k)) by (eapply linked_frame; [|exact L1]; intros k' Hk'; apply F0; intros ->; contradiction).
    assert (L2' : linked m0 (Some k) l2 None) by (eapply linked_frame; [|exact L2]; intros k' Hk'; apply F0; intros ->; contradiction).
    (* the part after *)
    assert (S1 : exists m1, (match first l2 None with
                 | Some x => y <- unwrap (eget keqb m0 x) ;; Ok (eput keqb m0 x (en_update y (final l1 None) (en_less y)))
                 | None => Ok m0 end) = Ok m1 /\ linked m1 (final l1 None) l2 None /\ (forall k', ~ In k' (keys l2) -> eget keqb m1 k' = eget keqb m0 k')).
    { destruct l2 as [|p l2]; cbn [first].
      - exists m0. split; [reflexivity|]. split; [exact I|reflexivity].
      - pose proof (proj1 L2') as G. rewrite G. cbn [unwrap bind en_update en_key en_obj en_size en_less]. eexists. split; [reflexivity|].
        split.
        + eapply linked_more; [exact L2'|]. unfold keys in H1. rewrite map_app in H1. cbn [map] in H1. apply NoDup_mid in H1. destruct H1 as [_ H1].
          intros C. apply H1. apply in_or_app. right. exact C.
        + intros k' Hk'. rewrite eget_put, keqb_neq; [reflexivity|]. intros C; subst; apply Hk'. left. reflexivity. }
    destruct S1 as (m1 & E1 & M1 & F1).
    assert (D12 : forall k', In k' (keys l1) -> ~ In k' (keys l2)).
    { intros k' A B. apply in_split in A. destruct A as (a & b & Ea). unfold keys in H1. rewrite map_app in H1. fold (keys l1) (keys l2) in H1. rewrite Ea in H1.
      rewrite <- app_assoc in H1. cbn [app] in H1. apply NoDup_mid in H1. apply H1. apply in_or_app. right. apply in_or_app. right. exact B. }
    assert (L1'' : linked m1 None l1 (Some k)) by (eapply linked_frame; [|exact L1']; intros k' Hk'; apply F1; apply D12; exact Hk').
    assert (S2 : exists m2, (match final l1 None with
                 | Some x => y <- unwrap (eget keqb m1 x) ;; Ok (eput keqb m1 x (en_update y (en_more y) (first l2 None)))
                 | None => Ok m1 end) = Ok m2 /\ linked m2 None l1 (first l2 None) /\ (forall k', ~ In k' (keys l1) -> eget keqb m2 k' = eget keqb m1 k')).
    { destruct l1 as [|q l1].
      - exists m1. split; [reflexivity|]. split; [exact I|reflexivity].
      - destruct (@exists_last _ (q :: l1)) as (a & p & Ep); [discriminate|]. rewrite Ep in *.
        rewrite final_app. cbn [final].
        apply linked_app in L1''. destruct L1'' as [La [Lp _]]. cbn [first] in La, Lp. rewrite Lp. cbn [unwrap bind en_update en_key en_obj en_size en_more].
        eexists. split; [reflexivity|].
        assert (Np : ~ In (fst p) (keys a)).
        { unfold keys in H1. rewrite !map_app in H1. cbn [map] in H1. rewrite <- app_assoc in H1. cbn [app] in H1. apply NoDup_mid in H1.
          intros C. apply H1. apply in_or_app. left. exact C. }
        split.
        + apply linked_app. split.
          * eapply linked_frame; [|exact La]. intros k' Hk'. rewrite eget_put, keqb_neq; [reflexivity|]. intros C; subst; contradiction.
          * cbn [linked first]. split; [|exact I]. rewrite eget_put, keqb_refl. reflexivity.
        + intros k' Hk'. rewrite eget_put, keqb_neq; [reflexivity|]. intros C; subst; apply Hk'. unfold keys. rewrite map_app. apply in_or_app. right. left. reflexivity. }
    destruct S2 as (m2 & E2 & M2 & F2).
    assert (Some1 : exists x, first l1 (Some k) = Some x) by (destruct l1; eexists; reflexivity). destruct Some1 as [x1 Ex1].
    destruct (final_in l2 k) as (x2 & Ex2 & Hx2). rewrite Ex1, Ex2. cbn [unwrap bind].
    eexists. eexists. split; [|split; [|split; [reflexivity|split]]].
    - cbn [en_key en_obj en_more en_less]. rewrite E1. cbn [bind]. rewrite E2. cbn [bind]. reflexivity.
    - constructor; cbn [es_map es_most es_least].
      + exact H1.
      + apply linked_app. split; [exact M2|]. eapply linked_frame; [|exact M1]. intros k' Hk'. apply F2. intros C. exact (D12 _ C Hk').
      + destruct l1 as [|q l1]; cbn [first app] in *.
        * injection Ex1 as <-. rewrite keqb_refl. reflexivity.
        * injection Ex1 as <-. rewrite keqb_neq; [reflexivity|]. intros E. apply Hk1. left. exact E.
      + rewrite final_app. destruct Hx2 as [[-> ->]|Hx2]; [rewrite keqb_refl; reflexivity|].
        rewrite keqb_neq by (intros ->; contradiction). destruct l2 as [|q l2]; [destruct Hx2|]. cbn [final] in *. rewrite Ex2. reflexivity.
      + intros k' Hk'. destruct (key_dec k' k) as [->|N].
        * rewrite F2 by exact Hk1. rewrite F1 by exact Hk2. unfold m0. rewrite eget_take, keqb_refl. reflexivity.
        * unfold keys in Hk'. rewrite map_app, in_app_iff in Hk'. rewrite F2 by (intros C; apply Hk'; left; exact C). rewrite F1 by (intros C; apply Hk'; right; exact C).
          rewrite F0 by exact N. apply H5. unfold keys. rewrite map_app. cbn [map fst]. rewrite in_app_iff. cbn [In]. intros [C|[C|C]]; [apply Hk'; left; exact C|congruence|apply Hk'; right; exact C].
    - reflexivity.
    - reflexivity.
  Qed.

  (** ** One get at a time *)

  Lemma sum_app l1 l2 : sum_sizes (l1 ++ l2) = sum_sizes l1 + sum_sizes l2.
  Proof. unfold CacheSpec.sum_sizes. induction l1 as [|p l1 IH]; cbn [app fold_right]; [reflexivity|]. rewrite IH. lia. Qed.
  Lemma fitting_all l : forall room, sum_sizes l <= room -> fitting room l = l.
  Proof.
    induction l as [|p l IH]; intros room H; cbn [CacheSpec.fitting]; [reflexivity|]. cbn [CacheSpec.sum_sizes fold_right] in H. fold (CacheSpec.sum_sizes size l) in H.
    destruct (Nat.leb_spec (size (snd p)) room); [|lia]. rewrite IH by lia. reflexivity.
  Qed.
  Lemma fitting_snoc l p : forall room, room < sum_sizes (l ++ [p]) -> fitting room (l ++ [p]) = fitting room l.
  Proof.
    induction l as [|q l IH]; intros room H; cbn [app CacheSpec.fitting].
    - cbn in H. destruct (Nat.leb_spec (size (snd p)) room); [lia|reflexivity].
    - cbn [app CacheSpec.sum_sizes fold_right] in H. fold (CacheSpec.sum_sizes size (l ++ [p])) in H. destruct (Nat.leb_spec (size (snd q)) room); [|reflexivity].
      rewrite IH by lia. reflexivity.
  Qed.
  Lemma fitting_sum l : forall room, sum_sizes (fitting room l) <= room.
  Proof.
    induction l as [|p l IH]; intros room; cbn [CacheSpec.fitting]; [cbn; lia|]. destruct (Nat.leb_spec (size (snd p)) room); [|cbn; lia].
    cbn [CacheSpec.sum_sizes fold_right]. fold (CacheSpec.sum_sizes size (fitting (room - size (snd p)) l)). specialize (IH (room - size (snd p))). lia.
  Qed.
  Lemma fitting_prefix l : forall room, exists r, l = fitting room l ++ r.
  Proof.
    induction l as [|p l IH]; intros room; cbn [CacheSpec.fitting]; [exists []; reflexivity|]. destruct (_ <=? _); [|eexists; reflexivity].
    destruct (IH (room - size (snd p))) as [r E]. exists r. cbn [app]. rewrite <- E. reflexivity.
  Qed.

  Record holds_list (limit : nat) (s : entries) (l : list (K * V)) : Prop :=
    { hl_rep : rep s l; hl_limit : es_limit s = limit; hl_size : es_size s = sum_sizes l; hl_fits : sum_sizes l <= limit }.

  Lemma evict_rep limit l : forall s fuel, rep s l -> es_limit s = limit -> es_size s = sum_sizes l -> length l < fuel ->
    exists s', evict keqb fuel s = Ok s' /\ holds_list limit s' (fitting limit l).
  Proof.
    induction l as [|p l IH] using rev_ind; intros s fuel HR HL HS HF; (destruct fuel as [|fuel]; [lia|]); cbn [evict].
    - rewrite HL, HS. cbn. exists s. split; [reflexivity|]. constructor; cbn; auto. lia.
    - rewrite HL, HS. destruct (Nat.ltb_spec limit (sum_sizes (l ++ [p]))) as [H|H].
      + rewrite (rp_least _ _ HR), final_app. cbn [final unwrap bind].
        destruct p as [k v]. cbn [fst]. destruct (remove_rep s l k v [] HR) as (s' & e & E & HR' & -> & HL' & HS'). rewrite E. cbn [bind unwrap].
        rewrite HS', HS, usub_ok by (cbn [en_size]; rewrite sum_app; cbn; lia). cbn [bind en_size]. rewrite app_nil_r in HR'.
        rewrite fitting_snoc by exact H. apply IH.
        * destruct HR' as [A B C D F]. constructor; assumption.
        * cbn [es_limit]. congruence.
        * cbn [es_size]. rewrite sum_app. cbn. lia.
        * rewrite app_length in HF. cbn [length] in HF. lia.
      + exists s. split; [reflexivity|]. rewrite fitting_all by exact H. constructor; auto.
  Qed.
  Lemma insert_rep limit s l k v : holds_list limit s l -> ~ In k (keys l) ->
    exists s', insert keqb size s k v = Ok s' /\ holds_list limit s' (fitting limit ((k, v) :: l)).
  Proof.
    intros [HR HL HS HF] Hn. unfold insert. cbn [en_size].
    destruct (push_rep (mkEntries (es_limit s) (es_size s + size v) (es_map s) (es_most s) (es_least s)) l k v None None) as (s' & E & HR' & HL' & HS').
    { destruct HR as [A B C D F]. constructor; assumption. }
    { exact Hn. }
    rewrite E. cbn [bind]. apply evict_rep.
    - exact HR'.
    - rewrite HL'. exact HL.
    - rewrite HS'. cbn [es_size CacheSpec.sum_sizes fold_right snd]. fold (CacheSpec.sum_sizes size l). lia.
    - pose proof (rep_length _ _ HR'). lia.
  Qed.

  Lemma without_none k l : ~ In k (keys l) -> without k l = l.
  Proof.
    unfold CacheSpec.without, keys. induction l as [|p l IH]; cbn [filter map]; intros H; [reflexivity|].
    rewrite keqb_neq by (intros ->; apply H; left; reflexivity). cbn [negb]. rewrite IH; [reflexivity|]. intros C. apply H. right. exact C.
  Qed.
  Lemma found_none k l : found k l = None <-> ~ In k (keys l).
  Proof.
    unfold CacheSpec.found, keys. induction l as [|p l IH]; cbn [find map In]; [tauto|]. destruct (keqb k (fst p)) eqn:E.
    - apply Heq in E. subst k. split; [discriminate|]. intros C. exfalso. apply C. left. reflexivity.
    - rewrite IH. split; [|tauto]. intros H [C|C]; [|contradiction]. subst k. rewrite keqb_refl in E. discriminate.
  Qed.
  Lemma found_split k v l : found k l = Some v -> exists l1 l2, l = l1 ++ (k, v) :: l2 /\ ~ In k (keys l1).
  Proof.
    unfold CacheSpec.found. induction l as [|[a b] l IH]; cbn [find fst]; [discriminate|]. destruct (keqb k a) eqn:E.
    - apply Heq in E. subst a. cbn [snd]. intros H. injection H as <-. exists [], l. split; [reflexivity|intros []].
    - intros H. destruct (IH H) as (l1 & l2 & -> & Hn). exists ((a, b) :: l1), l2. split; [reflexivity|]. intros [C|C]; [|contradiction].
      cbn in C. subst a. rewrite keqb_refl in E. discriminate.
  Qed.
  Lemma without_split k v l1 l2 : NoDup (keys (l1 ++ (k, v) :: l2)) -> without k (l1 ++ (k, v) :: l2) = l1 ++ l2.
  Proof.
    unfold keys. rewrite map_app. cbn [map fst]. intros H. apply NoDup_mid in H. destruct H as [_ H]. unfold CacheSpec.without. rewrite filter_app. cbn [filter fst]. rewrite keqb_refl. cbn [negb].
    rewrite in_app_iff in H. pose proof (without_none k l1) as A. pose proof (without_none k l2) as B. unfold CacheSpec.without, keys in A, B. rewrite A, B by tauto. reflexivity.
  Qed.
  Lemma sum_without k v l1 l2 : sum_sizes ((k, v) :: l1 ++ l2) = sum_sizes (l1 ++ (k, v) :: l2).
  Proof. rewrite sum_app. cbn [CacheSpec.sum_sizes fold_right snd]. fold (CacheSpec.sum_sizes size (l1 ++ l2)) (CacheSpec.sum_sizes size l2). rewrite sum_app. lia. Qed.

  Lemma lookup_rep limit s l k : holds_list limit s l ->
    match found k l with
    | Some v => exists s', lookup keqb s k = Ok (s', Some v) /\ holds_list limit s' ((k, v) :: without k l)
    | None => lookup keqb s k = Ok (s, None)
    end.
  Proof.
    intros [HR HL HS HF]. unfold lookup. destruct (found k l) as [v|] eqn:E.
    - apply found_split in E. destruct E as (l1 & l2 & -> & _). rewrite (without_split _ _ _ _ (rp_nodup _ _ HR)).
      destruct (remove_rep s l1 k v l2 HR) as (s' & e & -> & HR' & -> & HL' & HS'). cbn [bind].
      pose proof (rp_nodup _ _ HR) as ND. unfold keys in ND. rewrite map_app in ND. cbn [map fst] in ND. apply NoDup_mid in ND. rewrite <- map_app in ND.
      destruct (push_rep s' (l1 ++ l2) k v (final l1 None) (first l2 None) HR' (proj2 ND)) as (s'' & -> & HR'' & HL'' & HS''). cbn [bind en_obj].
      exists s''. split; [reflexivity|]. rewrite <- sum_without in HS, HF. constructor; auto; congruence.
    - apply found_none in E. unfold remove. rewrite (rep_none _ _ _ HR E). reflexivity.
  Qed.

  Lemma cache_get_rep limit s l k r : holds_list limit s l -> answers r ->
    exists s', cache_get keqb size s k r = Ok (s', snd (fst (lru_get limit l k r)), snd (lru_get limit l k r)) /\
      holds_list limit s' (fst (fst (lru_get limit l k r))).
  Proof.
    intros HH HA. unfold cache_get, CacheSpec.lru_get. pose proof (lookup_rep limit s l k HH) as HL. destruct (found k l) as [v|] eqn:E; cbn [fst snd].
    - destruct HL as (s' & -> & H'). exists s'. cbn [bind]. split; [reflexivity|exact H'].
    - rewrite HL. cbn [bind]. destruct r as [v|e| |]; try destruct HA.
      + apply found_none in E. destruct (insert_rep limit s l k v HH E) as (s' & -> & H'). exists s'. split; [reflexivity|exact H'].
      + exists s. split; [reflexivity|exact HH].
  Qed.

  (** ** Sequences of gets *)
  Lemma gets_rep limit requests : forall s l, holds_list limit s l -> Forall (fun x => answers (snd x)) requests ->
    exists s', gets keqb size s requests = Ok (s', snd (lru limit l requests)) /\ holds_list limit s' (fst (lru limit l requests)).
  Proof.
    induction requests as [|[k r] rest IH]; intros s l HH HA; cbn [gets CacheSpec.lru].
    - exists s. split; [reflexivity|exact HH].
    - destruct (cache_get_rep limit s l k r HH (Forall_inv HA)) as (s1 & -> & H1). cbn [bind].
      destruct (lru_get limit l k r) as [[l1 ld] a]. cbn [fst snd] in *.
      destruct (IH s1 l1 H1 (Forall_inv_tail HA)) as (s2 & -> & H2). cbn [bind].
      destruct (lru limit l1 rest) as [l2 out]. cbn [fst snd] in *. exists s2. split; [reflexivity|exact H2].
  Qed.

  (** What is in the list was loaded. *)
  Lemma lru_found limit l k r k' v : In (k', v) (fst (fst (lru_get limit l k r))) -> In (k', v) l \/ (k' = k /\ r = Ok v).
  Proof.
    unfold CacheSpec.lru_get. destruct (found k l) as [w|] eqn:E; cbn [fst].
    - intros [H|H].
      + injection H as <- <-. left. apply found_split in E. destruct E as (l1 & l2 & -> & _). apply in_or_app. right. left. reflexivity.
      + left. apply filter_In in H. tauto.
    - destruct r as [w|e| |]; auto. intros H. destruct (fitting_prefix ((k, w) :: l) limit) as [t Et].
      assert (H' : In (k', v) ((k, w) :: l)) by (rewrite Et; apply in_or_app; left; exact H).
      destruct H' as [H'|H']; [injection H' as <- <-; right; auto|left; exact H'].
  Qed.
  Lemma lru_transparent limit requests : forall l,
    (forall k v r, In (k, v) l -> In (k, r) requests -> r = Ok v) -> stable requests ->
    map snd (snd (lru limit l requests)) = map snd requests.
  Proof.
    induction requests as [|[k r] rest IH]; intros l Hl HS; cbn [CacheSpec.lru map snd]; [reflexivity|].
    destruct (lru_get limit l k r) as [[l1 ld] a] eqn:E. specialize (IH l1). destruct (lru limit l1 rest) as [l2 out]. cbn [snd map] in *. f_equal.
    - unfold CacheSpec.lru_get in E. destruct (found k l) as [v|] eqn:F; [|congruence]. injection E as _ _ <-.
      apply found_split in F. destruct F as (a1 & a2 & -> & _). symmetry. apply (Hl k v r); [apply in_or_app; right; left; reflexivity|left; reflexivity].
    - apply IH.
      + intros k' v r' Hin Hreq. pose proof (lru_found limit l k r k' v) as HF. rewrite E in HF. cbn [fst] in HF. destruct (HF Hin) as [H|[-> ->]].
        * apply (Hl k' v r' H). right. exact Hreq.
        * apply in_split in Hreq. destruct Hreq as (b & c & ->). apply (HS [] k v b r' c). reflexivity.
      + intros before k' v between r' after Eq. apply (HS ((k, r) :: before) k' v between r' after). rewrite Eq. reflexivity.
  Qed.

  (** The list is made of the keys used last. *)
  Definition touch (acc : list K) (k : K) : list K := k :: filter (fun x => negb (keqb k x)) acc.
  Lemma filter_prefix (f : K -> bool) a b : filter f (a ++ b) = filter f a ++ filter f b.
  Proof. apply filter_app. Qed.
  Lemma keys_without k l : keys (without k l) = filter (fun x => negb (keqb k x)) (keys l).
  Proof. unfold CacheSpec.without, keys. induction l as [|p l IH]; cbn [filter map]; [reflexivity|]. destruct (keqb k (fst p)); cbn [negb map]; rewrite IH; reflexivity. Qed.
  Lemma lru_get_recent limit l k r R t : keys l ++ t = R ->
    exists t', keys (fst (fst (lru_get limit l k r))) ++ t' = match snd (lru_get limit l k r) with Ok _ => touch R k | _ => R end.
  Proof.
    intros <-. unfold CacheSpec.lru_get. destruct (found k l) as [v|] eqn:E; cbn [fst snd].
    - exists (filter (fun x => negb (keqb k x)) t). unfold touch. rewrite filter_prefix, <- keys_without. reflexivity.
    - apply found_none in E. destruct r as [v|e| |]; eauto. destruct (fitting_prefix ((k, v) :: l) limit) as [q Eq].
      exists (keys q ++ filter (fun x => negb (keqb k x)) t). rewrite app_assoc. unfold keys at 1 2. rewrite <- map_app, <- Eq. cbn [map fst app].
      unfold touch. rewrite filter_prefix. f_equal. f_equal. rewrite <- keys_without, without_none by exact E. reflexivity.
  Qed.
  Lemma lru_recent limit requests : forall l R t, keys l ++ t = R ->
    exists t', keys (fst (lru limit l requests)) ++ t' = fold_left touch (used requests (snd (lru limit l requests))) R.
  Proof.
    induction requests as [|[k r] rest IH]; intros l R t E; cbn [CacheSpec.lru].
    - exists t. exact E.
    - pose proof (lru_get_recent limit l k r R t E) as (t1 & E1). destruct (lru_get limit l k r) as [[l1 ld] a]. cbn [fst snd] in E1.
      destruct (IH l1 _ t1 E1) as (t2 & E2). destruct (lru limit l1 rest) as [l2 out]. cbn [fst snd] in *. exists t2. rewrite E2.
      unfold used. cbn [combine flat_map fst snd]. destruct a; reflexivity.
  Qed.
End Proofs.
