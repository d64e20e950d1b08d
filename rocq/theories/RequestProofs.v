(** * Reads as questions to the resolver: lemmas *)
From Verif Require Import Base BaseFacts CacheModel CacheSpec CacheProofs GeomModel BitmapModel DacModel StreamModel ChunkModel NodeModel NodeProofs SuperModel ArrayModel RequestModel.
Arguments Nat.pow : simpl never.

(** ** From the store *)
Section Store.
  Variable st : store.

  Lemma store_catch {A B} (p : ask A) (f : res A -> ask B) : ask_store st (catch p f) = ask_store st (f (ask_store st p)).
  Proof. induction p as [x|c k IH]; cbn [catch ask_store]; [reflexivity|apply IH]. Qed.
  Lemma asked_catch {A B} (p : ask A) (f : res A -> ask B) : asked st (catch p f) = asked st p ++ asked st (f (ask_store st p)).
  Proof. induction p as [x|c k IH]; cbn [catch asked ask_store app]; [reflexivity|]. rewrite IH. reflexivity. Qed.
  Lemma store_bind {A B} (p : ask A) (f : A -> ask B) : ask_store st (abind p f) = (a <- ask_store st p ;; ask_store st (f a)).
  Proof. unfold abind. rewrite store_catch. destruct (ask_store st p) as [a|e| |]; reflexivity. Qed.
  Lemma asked_bind {A B} (p : ask A) (f : A -> ask B) :
    asked st (abind p f) = asked st p ++ match ask_store st p with Ok a => asked st (f a) | _ => [] end.
  Proof. unfold abind. rewrite asked_catch. destruct (ask_store st p) as [a|e| |]; reflexivity. Qed.
  Lemma store_map {A B} (f : res A -> res B) (p : ask A) : ask_store st (asked_map f p) = f (ask_store st p).
  Proof. unfold asked_map. rewrite store_catch. reflexivity. Qed.
  Lemma asked_asked_map {A B} (f : res A -> res B) (p : ask A) : asked st (asked_map f p) = asked st p.
  Proof. unfold asked_map. rewrite asked_catch. cbn [asked]. apply app_nil_r. Qed.
  Lemma store_gather {X Y} (f : X -> ask (list Y)) (g : X -> res (list Y)) l :
    (forall x, ask_store st (f x) = g x) -> ask_store st (gather f l) = flat_mapM g l.
  Proof.
    intros H. induction l as [|x l IH]; cbn [gather flat_mapM]; [reflexivity|]. rewrite !store_catch, H, IH. cbn [ask_store].
    destruct (g x) as [a|e| |]; reflexivity.
  Qed.
  Lemma asked_gather {X Y} (f : X -> ask (list Y)) l : asked st (gather f l) = flat_map (fun x => asked st (f x)) l.
  Proof.
    induction l as [|x l IH]; cbn [gather flat_map]; [reflexivity|]. rewrite !asked_catch, IH. cbn [asked]. rewrite app_nil_r. reflexivity.
  Qed.

  Lemma bind_ext {A B} (p : ask A) (q : res A) (f : A -> ask B) (g : A -> res B) :
    ask_store st p = q -> (forall a, ask_store st (f a) = g a) -> ask_store st (abind p f) = (a <- q ;; g a).
  Proof. intros <- H. rewrite store_bind. destruct (ask_store st p) as [a|e| |]; cbn [bind]; [apply H|reflexivity..]. Qed.

  Lemma store_mm c : ask_store st (ask_mm c) = get_mm st c.
  Proof. reflexivity. Qed.
  Lemma store_external s i : ask_store st (ask_external s i) = super_external st s i.
  Proof. unfold ask_external, super_external. apply bind_ext; [reflexivity|]. intros l. apply bind_ext; [reflexivity|]. intros c. apply store_mm. Qed.

  Ltac steps := repeat (apply bind_ext; [first [reflexivity|apply store_external]|intros ?]).

  Lemma store_get_ok fuel : forall m t r c bits, ask_store st (ask_get fuel m t r c bits) = mm_get st fuel m t r c bits.
  Proof.
    induction fuel as [|fuel IH]; intros m t r c bits; [reflexivity|]. cbn [ask_get mm_get]. destruct m as [s|ch|s local]; [steps; apply IH|reflexivity|].
    steps. destruct a3 as [|i|i]; [reflexivity| |]; steps; apply IH.
  Qed.
  Lemma store_cell_ok fuel : forall m a b r c bits, ask_store st (ask_cell fuel m a b r c bits) = mm_fill_cell st fuel m a b r c bits.
  Proof.
    induction fuel as [|fuel IH]; intros m a b r c bits; [reflexivity|]. cbn [ask_cell mm_fill_cell]. destruct m as [s|ch|s local]; [|reflexivity|].
    - steps. apply store_gather. intros [[[sp i] len] off]. steps. apply bind_ext; [apply IH|reflexivity].
    - steps. destruct a4 as [|i|i]; [reflexivity| |]; steps; apply IH.
  Qed.
  Lemma store_window_ok fuel : forall m b bits, ask_store st (ask_window fuel m b bits) = mm_fill_window st fuel m b bits.
  Proof.
    induction fuel as [|fuel IH]; intros m b bits; [reflexivity|]. cbn [ask_window mm_fill_window]. destruct m as [s|ch|s local]; [|reflexivity|].
    - steps. apply store_gather. intros [[[sp i] len] off]. steps. apply bind_ext; [apply IH|reflexivity].
    - steps. apply store_gather. intros sw. cbv zeta. apply bind_ext; [|reflexivity]. rewrite store_map. f_equal. steps.
      destruct a1 as [|i|i]; [reflexivity| |]; steps; apply IH.
  Qed.
  Lemma store_search_ok fuel : forall m b lower upper, ask_store st (ask_search fuel m b lower upper) = mm_search st fuel m b lower upper.
  Proof.
    induction fuel as [|fuel IH]; intros m b lower upper; [reflexivity|]. cbn [ask_search mm_search]. destruct m as [s|ch|s local]; [|reflexivity|].
    - steps. apply store_gather. intros [[[sp i] len] off]. apply bind_ext; [reflexivity|]. intros c. rewrite store_map. f_equal. steps. apply bind_ext; [apply IH|reflexivity].
    - destruct (rearrangeZ lower upper) as [lo up]. steps. apply store_gather. intros sw. cbv zeta. apply bind_ext; [reflexivity|]. intros some. destruct some; [|reflexivity].
      rewrite store_map. f_equal. steps. destruct a0 as [|i|i]; [reflexivity| |]; steps; (apply bind_ext; [apply IH|reflexivity]).
  Qed.
End Store.

(** ** From the cache *)
Section Cached.
  Variables (size : node -> nat) (limit : nat).

  (** The cache holds objects of the store. *)
  Definition cache_of (st : store) (s : entries cid node) : Prop :=
    exists l, holds_list cid_eqb size limit s l /\ Forall (fun p => retrieve st (fst p) = Ok (snd p)) l.

  Lemma cache_of_new st : cache_of st (entries_new limit).
  Proof. exists []. split; [|constructor]. constructor; cbn; try lia; [apply rep_new|reflexivity..]. Qed.

  Lemma fitting_incl l : forall room, incl (fitting (K := cid) size room l) l.
  Proof.
    induction l as [|p l IH]; intros room; cbn [fitting]; [apply incl_refl|]. destruct (size (snd p) <=? room); [|intros x []].
    intros x [<-|H]; [left; reflexivity|right; exact (IH _ x H)].
  Qed.

  Lemma cache_ask {A} (st : store) (p : ask A) : (forall c, answers (retrieve st c)) -> forall s, cache_of st s ->
    exists s' loads, ask_cache size st s p = Ok (s', loads, ask_store st p) /\ cache_of st s' /\ incl loads (asked st p) /\
      length loads <= length (asked st p).
  Proof.
    intros HA. induction p as [x|c k IH]; intros s (l & HL & HF); cbn [ask_cache ask_store asked].
    - exists s, []. split; [reflexivity|]. split; [exists l; auto|]. split; [apply incl_refl|cbn; lia].
    - destruct (cache_get_rep cid_eqb size cid_eqb_spec limit s l c (retrieve st c) HL (HA c)) as (s1 & E & HL1). rewrite E. cbn [bind].
      assert (HS : snd (lru_get cid_eqb size limit l c (retrieve st c)) = retrieve st c /\ cache_of st s1).
      { unfold lru_get in *. destruct (found cid_eqb c l) as [v|] eqn:EF; cbn [fst snd] in *.
        - unfold found in EF. destruct (find (fun p => cid_eqb c (fst p)) l) as [[c' v']|] eqn:Ef; [|discriminate]. injection EF as <-.
          apply find_some in Ef. destruct Ef as [Hin Ec]. cbn [fst] in Ec. apply cid_eqb_spec in Ec. subst c'. pose proof HF as HF'.
          rewrite Forall_forall in HF'. pose proof (HF' _ Hin) as R. cbn [fst snd] in R |- *. split; [symmetry; exact R|].
          eexists. split; [exact HL1|]. constructor; [exact R|]. unfold without. apply Forall_forall. intros p Hp. apply filter_In in Hp. apply HF', Hp.
        - split; [reflexivity|]. eexists. split; [exact HL1|]. destruct (retrieve st c) as [v| | |] eqn:R; try exact HF.
          apply Forall_forall. intros p Hp. apply fitting_incl in Hp. destruct Hp as [<-|Hp]; [exact R|]. rewrite Forall_forall in HF. apply HF, Hp. }
      destruct HS as [-> HC]. destruct (IH (retrieve st c) s1 HC) as (s2 & loads & E2 & HC2 & HI & HN). rewrite E2. cbn [bind].
      eexists. eexists. split; [reflexivity|]. split; [exact HC2|]. split.
      + destruct (snd (fst (lru_get cid_eqb size limit l c (retrieve st c)))); cbn [app]; intros x Hx; [destruct Hx as [<-|Hx]; [left; reflexivity|]|]; right; apply HI, Hx.
      + rewrite app_length. destruct (snd (fst (lru_get cid_eqb size limit l c (retrieve st c)))); cbn [length]; lia.
  Qed.

  Lemma cache_grows st st' s : incl st st' -> functional st' -> cache_of st s -> cache_of st' s.
  Proof.
    intros HI HF (l & HL & HR). exists l. split; [exact HL|]. eapply Forall_impl; [|exact HR]. intros [c n] R. cbn [fst snd] in *. apply (retrieve_incl st); assumption.
  Qed.
End Cached.

(** ** From anywhere *)

(** Programs that do the same whatever of two related answers they get. *)
Fixpoint sim {A B} (Q : res node -> res node -> Prop) (R : res A -> res B -> Prop) (p : ask A) (q : ask B) : Prop :=
  match p, q with
  | Answer x, Answer y => R x y
  | Ask c k, Ask c' k' => c = c' /\ forall r r', Q r r' -> sim Q R (k r) (k' r')
  | _, _ => False
  end.

Section Anywhere.
  Variable Q : res node -> res node -> Prop.
  Lemma sim_catch {A B A' B'} (R : res A -> res A' -> Prop) (T : res B -> res B' -> Prop) : forall p q f g,
    sim Q R p q -> (forall x y, R x y -> sim Q T (f x) (g y)) -> sim Q T (catch p f) (catch q g).
  Proof.
    induction p as [x|c k IH]; intros [y|c' k'] f g H HF; cbn [sim catch] in *; try contradiction; [apply HF, H|].
    destruct H as [E H]. split; [exact E|]. intros r r' Hr. apply IH; [apply H, Hr|exact HF].
  Qed.
  Lemma sim_gives {A B} (allowed : cid -> res node -> Prop) (R : res A -> res B -> Prop) st : (forall c r, allowed c r -> Q r (retrieve st c)) ->
    forall p q x, sim Q R p q -> gives allowed p x -> R x (ask_store st q).
  Proof.
    intros HA p q x HS H. revert q HS. induction H as [y|c k r y Ha H IH]; intros [z|c' k'] HS; cbn [sim ask_store] in *; try contradiction; [exact HS|].
    destruct HS as [<- HS]. apply IH. apply HS, HA, Ha.
  Qed.

  (** Results that agree but for which error. *)
  Definition rel_res {A B} (E : A -> B -> Prop) (x : res A) (y : res B) : Prop :=
    match x, y with Ok a, Ok b => E a b | Err _, Err _ => True | Panic, Panic => True | Diverge, Diverge => True | _, _ => False end.
  Lemma rel_refl {A} (E : A -> A -> Prop) x : (forall a, E a a) -> rel_res E x x.
  Proof. intros H. destruct x; cbn; auto. Qed.
  Lemma sim_bind {A B A' B'} (E : A -> A' -> Prop) (F : B -> B' -> Prop) p q f g :
    sim Q (rel_res E) p q -> (forall a b, E a b -> sim Q (rel_res F) (f a) (g b)) -> sim Q (rel_res F) (abind p f) (abind q g).
  Proof.
    intros H HF. unfold abind. eapply sim_catch; [exact H|]. intros [a|e| |] [b|e'| |] HR; cbn [rel_res] in HR; try contradiction; [apply HF, HR|cbn; exact I..].
  Qed.
  Lemma sim_gather {X Y Y'} (E : Y -> Y' -> Prop) (f : X -> ask (list Y)) (g : X -> ask (list Y')) l :
    (forall x, sim Q (rel_res (Forall2 E)) (f x) (g x)) -> sim Q (rel_res (Forall2 E)) (gather f l) (gather g l).
  Proof.
    intros H. induction l as [|x l IH]; cbn [gather]; [cbn; constructor|]. eapply sim_catch; [apply H|]. intros a b HR. eapply sim_catch; [apply IH|]. intros a' b' HR'.
    cbn [sim]. destruct a as [a|e| |], b as [b|e2| |]; cbn [rel_res] in HR; try contradiction; try exact I.
    destruct a' as [a'|e'| |], b' as [b'|e2'| |]; cbn [rel_res] in HR'; try contradiction; try exact I. cbn. apply Forall2_app; assumption.
  Qed.
  Hypothesis HQ : forall r r', Q r r' -> rel_res eq r r'.

  Lemma sim_answer {A} (E : A -> A -> Prop) (x : res A) : (forall a, E a a) -> sim Q (rel_res E) (Answer x) (Answer x).
  Proof. intros H. cbn. apply rel_refl, H. Qed.
  Lemma sim_mm c : sim Q (rel_res eq) (ask_mm c) (ask_mm c).
  Proof. split; [reflexivity|]. intros r r' Hr. apply HQ in Hr. destruct r as [n|e| |], r' as [n'|e'| |]; cbn in Hr; try contradiction; cbn; auto. subst n'. destruct n; cbn; auto. Qed.
  Lemma sim_links c : sim Q (rel_res eq) (ask_links c) (ask_links c).
  Proof. split; [reflexivity|]. intros r r' Hr. apply HQ in Hr. destruct r as [n|e| |], r' as [n'|e'| |]; cbn in Hr; try contradiction; cbn; auto. subst n'. destruct n; cbn; auto. Qed.
  Lemma sim_eq {A B} (E : B -> B -> Prop) (p : ask A) (f : A -> ask B) (g : A -> ask B) :
    sim Q (rel_res eq) p p -> (forall a, sim Q (rel_res E) (f a) (g a)) -> sim Q (rel_res E) (abind p f) (abind p g).
  Proof. intros H HF. eapply sim_bind; [exact H|]. intros a b <-. apply HF. Qed.
  Lemma sim_pure {A B} (E : B -> B -> Prop) (x : res A) (f g : A -> ask B) :
    (forall a, sim Q (rel_res E) (f a) (g a)) -> sim Q (rel_res E) (abind (Answer x) f) (abind (Answer x) g).
  Proof. apply sim_eq. apply sim_answer. reflexivity. Qed.
  Lemma sim_external s i : sim Q (rel_res eq) (ask_external s i) (ask_external s i).
  Proof. unfold ask_external. apply sim_eq; [apply sim_links|]. intros l. apply sim_pure. intros c. apply sim_mm. Qed.
  Lemma Forall2_same {A} (l l' : list A) : Forall2 eq l l' -> l = l'.
  Proof. induction 1; congruence. Qed.
  Lemma Forall2_self {A} (E : A -> A -> Prop) l : (forall a, E a a) -> Forall2 E l l.
  Proof. intros H. induction l; constructor; auto. Qed.
  Lemma sim_mono {A B} (E F : A -> B -> Prop) : (forall a b, E a b -> F a b) -> forall p q, sim Q (rel_res E) p q -> sim Q (rel_res F) p q.
  Proof.
    intros H. induction p as [x|c k IH]; intros [y|c' k'] HS; cbn [sim] in *; try contradiction.
    - destruct x, y; cbn in *; auto.
    - destruct HS as [E1 HS]. split; [exact E1|]. intros r r' Hr. apply IH, HS, Hr.
  Qed.
  Lemma sim_gather_eq {X Y} (f : X -> ask (list Y)) l : (forall x, sim Q (rel_res eq) (f x) (f x)) -> sim Q (rel_res eq) (gather f l) (gather f l).
  Proof.
    intros H. eapply sim_mono; [apply Forall2_same|]. apply sim_gather. intros x. eapply sim_mono; [|apply H]. intros a b <-. apply Forall2_self. reflexivity.
  Qed.

  Ltac steps := repeat first [apply sim_answer; reflexivity|apply sim_pure; intros ?|apply sim_eq; [first [apply sim_external|apply sim_mm]|intros ?]].

  Lemma sim_get fuel : forall m t r c bits, sim Q (rel_res eq) (ask_get fuel m t r c bits) (ask_get fuel m t r c bits).
  Proof.
    induction fuel as [|fuel IH]; intros m t r c bits; cbn [ask_get]; [steps|]. destruct m as [s|ch|s local]; [steps; apply IH|steps|].
    steps. destruct a3 as [|i|i]; steps; apply IH.
  Qed.
  Lemma sim_cell fuel : forall m a b r c bits, sim Q (rel_res eq) (ask_cell fuel m a b r c bits) (ask_cell fuel m a b r c bits).
  Proof.
    induction fuel as [|fuel IH]; intros m a b r c bits; cbn [ask_cell]; [steps|]. destruct m as [s|ch|s local]; [|steps|].
    - steps. apply sim_gather_eq. intros [[[sp i] len] off]. steps. apply sim_eq; [apply IH|intros ?; steps].
    - steps. destruct a4 as [|i|i]; steps; apply IH.
  Qed.
  Lemma sim_window fuel : forall m b bits, sim Q (rel_res eq) (ask_window fuel m b bits) (ask_window fuel m b bits).
  Proof.
    induction fuel as [|fuel IH]; intros m b bits; cbn [ask_window]; [steps|]. destruct m as [s|ch|s local]; [|steps|].
    - steps. apply sim_gather_eq. intros [[[sp i] len] off]. steps. apply sim_eq; [apply IH|intros ?; steps].
    - steps. apply sim_gather_eq. intros sw. cbv zeta. apply sim_eq; [|intros ?; steps]. unfold asked_map. eapply sim_catch with (R := rel_res eq).
      + steps. destruct a1 as [|i|i]; steps; apply IH.
      + intros [x|e| |] [y|e'| |] HR; cbn in HR; try contradiction; cbn; auto.
  Qed.
  (** Items of a search that agree but for which error. *)
  Definition item_like (x y : item) : Prop := match x, y with inl _, inl _ => True | inr a, inr b => a = b | _, _ => False end.
  Lemma item_refl x : item_like x x.
  Proof. destruct x; cbn; auto. Qed.
  Lemma items_refl l : Forall2 item_like l l.
  Proof. apply Forall2_self, item_refl. Qed.
  Lemma sim_or_error (p : ask (list item)) (q : ask (list item)) :
    sim Q (rel_res (Forall2 item_like)) p q -> sim Q (rel_res (Forall2 item_like)) (asked_map or_error p) (asked_map or_error q).
  Proof.
    intros H. unfold asked_map. eapply sim_catch; [exact H|]. intros [x|e| |] [y|e'| |] HR; cbn in HR; try contradiction; cbn; auto.
  Qed.
  Lemma shift_like dt dr dc l l' : Forall2 item_like l l' -> Forall2 item_like (map (shift_item dt dr dc) l) (map (shift_item dt dr dc) l').
  Proof. induction 1 as [|x y l l' H _ IH]; cbn [map]; constructor; [|exact IH]. destruct x as [e|[[a b] c]], y as [e'|[[a' b'] c']]; cbn in *; try contradiction; congruence. Qed.
  Lemma sim_search fuel : forall m b lower upper, sim Q (rel_res (Forall2 item_like)) (ask_search fuel m b lower upper) (ask_search fuel m b lower upper).
  Proof.
    assert (S1 : forall (x : res (list item)), sim Q (rel_res (Forall2 item_like)) (Answer x) (Answer x)) by (intros x; apply sim_answer, items_refl).
    induction fuel as [|fuel IH]; intros m b lower upper; cbn [ask_search]; [apply S1|]. destruct m as [s|ch|s local]; [|apply S1|].
    - steps. apply sim_gather. intros [[[sp i] len] off]. steps. apply sim_or_error. steps. eapply sim_bind; [apply IH|]. intros l l' Hl. cbn. apply shift_like, Hl.
    - destruct (rearrangeZ lower upper) as [lo up]. steps. apply sim_gather. intros sw. cbv zeta. apply sim_pure. intros some. destruct some; [|apply S1].
      apply sim_or_error. apply sim_pure. intros ref. destruct ref as [|i|i]; [apply S1| |]; steps; (eapply sim_bind; [apply IH|]); intros l l' Hl; cbn; apply shift_like, Hl.
  Qed.
End Anywhere.
