(** * Operations do the same in a store that holds other objects too, whether or not they succeed. *)
From Verif Require Import Base BaseFacts Spec GeomModel BitmapModel DacModel StreamModel ChunkModel NodeModel NodeProofs SuperModel SuperViews SuperProofs
  ArrayModel ArrayProofs FixedModel FloatModel DatasetModel DatasetProofs AppendProofs HistoryModel KindProofs HistoryProofs SessionModel SessionProofs.
From Verif Require PropertiesListing PropertiesClosed.
Import PropertiesListing PropertiesClosed.
Arguments Nat.pow : simpl never.
Open Scope nat_scope.

(** [framed f w post]: what [f] does to [w], it does to every store that ends with [w],
    and if it succeeds, [post] holds of its result and the store it leaves. *)
Definition framed {A} (f : op A) (w : store) (post : A -> store -> Prop) : Prop :=
  laid (fst (f w)) -> functional (fst (f w)) ->
  (forall x, snd (f w) = Ok x -> post x (fst (f w))) /\
  forall st0, functional (st0 ++ fst (f w)) -> f (st0 ++ w) = (st0 ++ fst (f w), snd (f w)).

(** Operations that read nothing. *)
Definition blind {A} (f : op A) : Prop := forall w st0, f (st0 ++ w) = (st0 ++ fst (f w), snd (f w)).

Lemma blind_ret {A} (x : A) : blind (oret x).
Proof. intros w st0. reflexivity. Qed.
Lemma blind_lift {A} (r : res A) : blind (olift r).
Proof. intros w st0. reflexivity. Qed.
Lemma blind_save hash n : blind (osave hash n).
Proof. intros w st0. unfold osave, save. cbn [fst snd]. rewrite app_assoc. reflexivity. Qed.
Lemma blind_bind {A B} (m : op A) (f : A -> op B) : blind m -> (forall x, blind (f x)) -> blind (obind m f).
Proof. intros Hm Hf w st0. unfold obind. rewrite Hm. destruct (m w) as [w1 [x| | |]]; cbn [fst snd]; try reflexivity. apply Hf. Qed.
Lemma blind_fold {S X} (f : S -> X -> op S) : (forall s x, blind (f s x)) -> forall l s, blind (ofold f s l).
Proof. intros H. induction l as [|x l IH]; intros s; cbn [ofold]; [apply blind_ret|]. apply blind_bind; [apply H|exact IH]. Qed.

Lemma framed_blind {A} (f : op A) w : blind f -> framed f w (fun _ _ => True).
Proof. intros H _ _. split; [auto|]. intros st0 _. apply H. Qed.
Lemma framed_ret {A} (x : A) w (post : A -> store -> Prop) : post x w -> framed (oret x) w post.
Proof. intros H _ _. split; [intros y Ey; injection Ey as <-; exact H|]. intros st0 _. reflexivity. Qed.
Lemma framed_lift {A} (r : res A) w (post : A -> store -> Prop) : (forall x, r = Ok x -> post x w) -> framed (olift r) w post.
Proof. intros H _ _. split; [exact H|]. intros st0 _. reflexivity. Qed.
Lemma framed_weak {A} (f : op A) w (post post' : A -> store -> Prop) : (forall x w', post x w' -> post' x w') -> framed f w post -> framed f w post'.
Proof. intros HI H HL HF. destruct (H HL HF) as [H1 H2]. split; [|exact H2]. intros x Ex. apply HI, H1, Ex. Qed.
Lemma laid_before w u : laid (w ++ u) -> laid w.
Proof. intros H. apply (laid_prefix _ (length w)) in H. rewrite firstn_app, Nat.sub_diag, firstn_all in H. cbn [firstn] in H. rewrite app_nil_r in H. exact H. Qed.
Lemma framed_bind {A B} (m : op A) (f : A -> op B) w mid post : mono m -> (forall x, mono (f x)) -> framed m w mid ->
  (forall x w1, incl w w1 -> laid w1 -> functional w1 -> mid x w1 -> framed (f x) w1 post) -> framed (obind m f) w post.
Proof.
  intros Mm Mf Hm Hf HL HF. unfold framed, obind in *. pose proof (mono_incl m w Mm) as HI. destruct (m w) as [w1 r] eqn:E. cbn [fst snd] in *.
  destruct r as [x| | |]; cbn [fst snd] in *.
  - destruct (Mf x w1) as (u & Eu). assert (L1 : laid w1) by (rewrite Eu in HL; apply (laid_before w1 u HL)).
    assert (F1 : functional w1) by (eapply functional_incl; [|exact HF]; rewrite Eu; apply incl_appl, incl_refl).
    destruct (Hm L1 F1) as [P1 G1]. destruct (Hf x w1 HI L1 F1 (P1 x eq_refl) HL HF) as [P2 G2]. split; [exact P2|].
    intros st0 F0. rewrite G1; [apply G2, F0|]. eapply functional_incl; [|exact F0]. rewrite Eu. intros p Hp.
    apply in_app_or in Hp. apply in_or_app. destruct Hp as [Hp|Hp]; [left; exact Hp|right; apply in_or_app; left; exact Hp].
  - destruct (Hm HL HF) as [_ G1]. split; [discriminate|]. intros st0 F0. rewrite (G1 st0 F0). reflexivity.
  - destruct (Hm HL HF) as [_ G1]. split; [discriminate|]. intros st0 F0. rewrite (G1 st0 F0). reflexivity.
  - destruct (Hm HL HF) as [_ G1]. split; [discriminate|]. intros st0 F0. rewrite (G1 st0 F0). reflexivity.
Qed.
Lemma framed_lift_bind {A B} (r : res A) (f : A -> op B) w post : (forall x, r = Ok x -> framed (f x) w post) -> framed (obind (olift r) f) w post.
Proof.
  intros H. unfold framed, obind, olift. destruct r as [x| | |]; try (intros _ _; split; [discriminate|reflexivity]). exact (H x eq_refl).
Qed.
Lemma framed_fold {S X} (f : S -> X -> op S) (P : S -> store -> Prop) : (forall s x, mono (f s x)) ->
  (forall s x w, laid w -> functional w -> P s w -> framed (f s x) w P) -> forall l s w, laid w -> functional w -> P s w -> framed (ofold f s l) w P.
Proof.
  intros M H. induction l as [|x l IH]; intros s w HL HF HP; cbn [ofold]; [apply framed_ret; exact HP|].
  eapply framed_bind; [apply M|intros; apply mono_ofold; exact M|apply (H s x w HL HF HP)|]. intros s' w1 _ L1 F1 P1. apply IH; assumption.
Qed.

(** What an array refers to is in the store. *)
Definition backed (w : store) (m : mmstruct) : Prop := forall x, In x (mm_refs m) -> has w x.
Lemma backed_incl w w' m : incl w w' -> backed w m -> backed w' m.
Proof. intros HI H x Hx. eapply has_incl; [exact HI|apply H, Hx]. Qed.
Lemma all_backed_incl w w' l : incl w w' -> Forall (backed w) l -> Forall (backed w') l.
Proof. intros HI H. eapply Forall_impl; [|exact H]. intros m. apply backed_incl, HI. Qed.

Lemma framed_load c w : has w c -> framed (oload c) w (fun m w' => get_mm w' c = Ok m /\ backed w' m).
Proof.
  intros Hc HL HF. unfold oload in *. cbn [fst snd] in *. split.
  - intros m E. split; [exact E|]. unfold get_mm in E. apply bind_inv in E. destruct E as (n & R & E). pose proof (laid_retrieve w c n HL R) as H.
    destruct n as [m'| |]; try discriminate. injection E as <-. exact H.
  - intros st0 F0. f_equal. unfold get_mm. f_equal. unfold retrieve. destruct (has_got w c Hc) as (b & Eb). rewrite Eb.
    rewrite (store_get_in (st0 ++ w) c b); [reflexivity|exact F0|]. apply in_or_app. right. apply store_get_some, Eb.
Qed.
Lemma framed_save hash n w : framed (osave hash n) w (fun c w' => has w' c).
Proof.
  intros _ _. split; [|intros st0 _; apply blind_save]. intros c E. unfold osave, save in *. cbn [fst snd] in *. injection E as <-.
  eexists. apply in_or_app. right. left. reflexivity.
Qed.

Lemma span_last_in s c : span_last s = Ok c -> In c (sp_spans s).
Proof.
  unfold span_last. intros H. apply bind_inv in H. destruct H as (i & _ & H). unfold nth_res in H.
  destruct (nth_error (sp_spans s) i) as [x|] eqn:E; [|discriminate]. injection H as <-. eapply nth_error_In, E.
Qed.
Lemma as_span_inv m s : as_span m = Ok s -> m = MSpan s.
Proof. destruct m; try discriminate. intros H. injection H as ->. reflexivity. Qed.

Section Frames.
  Variable hash : bytes -> cid.

  Lemma framed_span_append s m w : backed w (MSpan s) -> framed (span_append hash s m) w (fun s' w' => backed w' (MSpan s')).
  Proof.
    intros HB. unfold span_append. eapply (framed_bind _ _ _ (fun _ _ => True)); [mono_auto|mono_auto| |].
    - destruct (0 <? _); [|apply framed_ret; exact I]. apply framed_lift_bind. intros c Ec.
      eapply framed_bind; [mono_auto|mono_auto|apply framed_load; apply HB; apply (span_last_in s c Ec)|].
      intros last w1 _ _ _ _. apply framed_blind, blind_bind; [apply blind_lift|]. intros n. destruct (_ =? _); [apply blind_ret|apply blind_lift].
    - intros _ w1 HI L1 F1 _. apply framed_lift_bind. intros [[n r] c] _. destruct (_ || _); [apply framed_lift; discriminate|].
      destruct (_ <? _); [apply framed_lift; discriminate|]. eapply framed_bind; [apply mono_save|mono_auto|apply framed_save|].
      intros x w2 HI2 _ _ Hx. apply framed_ret. intros y Hy. cbn [mm_refs sp_spans] in Hy. apply in_app_or in Hy. destruct Hy as [Hy|[<-|[]]]; [|exact Hx].
      eapply has_incl; [|apply HB; exact Hy]. eapply incl_tran; eassumption.
  Qed.
  Lemma in_removelast {X} (l : list X) x : In x (removelast l) -> In x l.
  Proof.
    induction l as [|a l IH]; cbn [removelast]; auto. destruct l as [|b l]; [intros []|]. intros [<-|H]; [left; reflexivity|right; apply IH, H].
  Qed.
  Lemma framed_span_update s m w : backed w (MSpan s) -> framed (span_update hash s m) w (fun s' w' => backed w' (MSpan s')).
  Proof. intros HB. apply framed_span_append. intros x Hx. apply HB. apply in_removelast, Hx. Qed.

  Lemma framed_tail_loop cs : forall fuel m anc w, backed w m -> Forall (backed w) anc -> framed (tail_loop fuel cs m anc) w (fun l w' => Forall (backed w') l).
  Proof.
    induction fuel as [|fuel IH]; intros m anc w HB HA; cbn [tail_loop]; [apply framed_lift; discriminate|].
    apply framed_lift_bind. intros s Es. apply as_span_inv in Es. subst m. destruct (_ <? _); [|apply framed_ret; constructor; assumption].
    apply framed_lift_bind. intros c Ec. eapply framed_bind; [apply mono_load|intros; apply mono_tail_loop|apply framed_load, HB, (span_last_in s c Ec)|].
    intros m' w1 HI _ _ [_ HB1]. apply IH; [exact HB1|]. constructor; [eapply backed_incl; eassumption|eapply all_backed_incl; eassumption].
  Qed.
  Lemma framed_tail_spans cs root w : has w root -> framed (tail_spans cs root) w (fun l w' => Forall (backed w') l).
  Proof.
    intros HR. unfold tail_spans. eapply framed_bind; [apply mono_load|intros; apply mono_bind; [apply mono_lift|intros; apply mono_tail_loop]|apply framed_load, HR|].
    intros m w1 _ _ _ [_ HB]. apply framed_lift_bind. intros s _. apply framed_tail_loop; [exact HB|constructor].
  Qed.
  Lemma framed_update_up : forall spans m w, backed w m -> Forall (backed w) spans -> framed (update_up hash m spans) w (fun m' w' => backed w' m').
  Proof.
    induction spans as [|p rest IH]; intros m w HB HS; cbn [update_up]; [apply framed_ret; exact HB|]. inversion HS as [|? ? Hp Hrest]; subst.
    apply framed_lift_bind. intros s Es. apply as_span_inv in Es. subst p.
    eapply framed_bind; [apply mono_span_update|intros; apply mono_update_up|apply framed_span_update, Hp|].
    intros s' w1 HI _ _ HB'. apply IH; [exact HB'|eapply all_backed_incl; eassumption].
  Qed.
  Lemma framed_save_spans spans w : Forall (backed w) spans -> framed (save_spans hash spans) w (fun c w' => has w' c).
  Proof.
    intros HS. unfold save_spans. destruct spans as [|m rest]; [apply framed_lift; discriminate|]. inversion HS as [|? ? Hm Hrest]; subst.
    eapply framed_bind; [apply mono_update_up|intros; apply mono_save|apply framed_update_up; assumption|]. intros. apply framed_save.
  Qed.
  Lemma backed_new w rows cols stride enc : backed w (MSpan (span_new rows cols stride enc)).
  Proof. intros x []. Qed.
  Lemma framed_open_loop ss rows cols enc : forall spans s l w, backed w (MSpan s) -> Forall (backed w) spans ->
    framed (open_loop hash ss rows cols enc s l spans) w (fun x w' => backed w' (MSpan (fst x)) /\ Forall (backed w') (snd x)).
  Proof.
    induction spans as [|p rest IH]; intros s l w HB HS; cbn [open_loop].
    - eapply framed_bind; [apply mono_span_append|intros; apply mono_bind; [apply mono_span_append|intros; apply mono_ret]|apply framed_span_append, backed_new|].
      intros r w1 HI _ _ Hr. eapply framed_bind; [apply mono_span_append|intros; apply mono_ret|apply framed_span_append, Hr|].
      intros r' w2 _ _ _ Hr'. apply framed_ret. split; [exact Hr'|constructor].
    - inversion HS as [|? ? Hp Hrest]; subst. apply framed_lift_bind. intros s0 Es. apply as_span_inv in Es. subst p. destruct (_ =? _).
      + eapply framed_bind; [apply mono_span_append|intros; apply mono_open_loop|apply framed_span_append, backed_new|].
        intros s' w1 HI _ _ Hs'. apply IH; [exact Hs'|eapply all_backed_incl; eassumption].
      + eapply framed_bind; [apply mono_span_append|intros; apply mono_ret|apply framed_span_append, Hp|].
        intros s' w1 HI _ _ Hs'. apply framed_ret. split; [exact Hs'|eapply all_backed_incl; eassumption].
  Qed.
  Lemma framed_create_open_span ss cs rows cols enc root w : has w root -> framed (create_open_span hash ss cs rows cols enc root) w (fun c w' => has w' c).
  Proof.
    intros HR. unfold create_open_span.
    assert (M : forall x : span * list mmstruct, mono (let '(s, a) := x in obind (update_up hash (MSpan s) a) (fun m => osave hash (NMM m)))).
    { intros [s a]. apply mono_bind; [apply mono_update_up|intros; apply mono_save]. }
    eapply framed_bind; [apply mono_tail_spans| |apply framed_tail_spans, HR|].
    - intros [|l rest]; [apply mono_lift|]. apply mono_bind; [apply mono_open_loop|exact M].
    - intros [|l rest] w1 _ _ _ HS; [apply framed_lift; discriminate|]. inversion HS as [|? ? Hl Hrest]; subst.
      eapply framed_bind; [apply mono_open_loop|exact M|apply framed_open_loop; [apply backed_new|exact Hrest]|].
      intros [s a] w2 _ _ _ [H1 H2]. eapply framed_bind; [apply mono_update_up|intros; apply mono_save|apply framed_update_up; assumption|]. intros. apply framed_save.
  Qed.
  Lemma framed_tail_data cs root w : has w root ->
    framed (tail_data cs root) w (fun t w' => forall m, t = Some m -> exists c, get_mm w' c = Ok m).
  Proof.
    intros HR. unfold tail_data. eapply framed_bind; [apply mono_tail_spans|intros [|l rest]; mono_auto|apply framed_tail_spans, HR|].
    intros [|l rest] w1 _ _ _ HS; [apply framed_lift; discriminate|]. inversion HS as [|? ? Hl Hrest]; subst.
    apply framed_lift_bind. intros s Es. apply as_span_inv in Es. subst l. destruct (_ =? 0); [apply framed_ret; discriminate|].
    apply framed_lift_bind. intros c Ec. eapply framed_bind; [apply mono_load|mono_auto|apply framed_load, Hl, (span_last_in s c Ec)|].
    intros m w2 _ _ _ [G _]. apply framed_lift_bind. intros n _. apply framed_ret. intros m' E. destruct (n <? cs); [|discriminate]. injection E as <-. eauto.
  Qed.

  Section Step.
    Variables (build : nat -> nat -> op mmstruct).
    Hypothesis Mb : forall a b, mono (build a b).
    Hypothesis Hb : forall a b, blind (build a b).

    Lemma framed_append_step v instants rows cols root spans upd start w : Forall (backed w) spans ->
      framed (append_step hash build v instants rows cols (root, spans, upd) start) w (fun x w' => Forall (backed w') (snd (fst x))).
    Proof.
      intros HS. unfold append_step.
      assert (M2 : forall chunk (y : cid * span * list mmstruct), mono (let '(r, s', rest') := y in
          obind (if upd then span_update hash s' chunk else span_append hash s' chunk) (fun s'' => oret (r, MSpan s'' :: rest', false)))).
      { intros chunk [[r s'] rest']. apply mono_bind; [apply mono_if; [apply mono_span_update|apply mono_span_append]|intros; apply mono_ret]. }
      assert (M1 : forall r2, mono (obind (tail_spans (va_chunk_size v) r2) (fun spans' => match spans' with
          | [] => olift Panic
          | m' :: rest' => obind (olift (as_span m')) (fun s' => if length (sp_spans s') =? 0 then oret (r2, s', rest') else olift Panic) end))).
      { intros r2. apply mono_bind; [apply mono_tail_spans|]. intros [|m' rest']; mono_auto. }
      assert (M3 : forall r1, mono (obind (create_open_span hash (va_span_size v) (va_chunk_size v) rows cols (va_enc v) r1) (fun r2 =>
          obind (tail_spans (va_chunk_size v) r2) (fun spans' => match spans' with
          | [] => olift Panic
          | m' :: rest' => obind (olift (as_span m')) (fun s' => if length (sp_spans s') =? 0 then oret (r2, s', rest') else olift Panic) end)))).
      { intros r1. apply mono_bind; [apply mono_create_open_span|exact M1]. }
      eapply (framed_bind _ _ _ (fun _ _ => True)); [apply Mb| |apply framed_blind, Hb|].
      - intros chunk. destruct spans as [|m rest]; [apply mono_lift|]. apply mono_bind; [apply mono_lift|]. intros s. apply mono_bind; [|apply M2].
        apply mono_if; [|apply mono_ret]. apply mono_bind; [apply mono_save_spans|exact M3].
      - intros chunk w1 HI1 _ _ _. destruct spans as [|m rest]; [apply framed_lift; discriminate|]. apply (all_backed_incl _ _ _ HI1) in HS.
        inversion HS as [|? ? Hm Hrest]; subst. apply framed_lift_bind. intros s Es. apply as_span_inv in Es. subst m.
        eapply (framed_bind _ _ _ (fun y w' => backed w' (MSpan (snd (fst y))) /\ Forall (backed w') (snd y))); [|apply M2| |].
        + apply mono_if; [|apply mono_ret]. apply mono_bind; [apply mono_save_spans|exact M3].
        + destruct (_ =? _); [|apply framed_ret; split; assumption].
          eapply framed_bind; [apply mono_save_spans|exact M3|apply framed_save_spans, HS|]. intros r1 w2 _ _ _ Hr1.
          eapply framed_bind; [apply mono_create_open_span|exact M1|apply framed_create_open_span, Hr1|]. intros r2 w3 _ _ _ Hr2.
          eapply framed_bind; [apply mono_tail_spans|intros [|m' rest']; mono_auto|apply framed_tail_spans, Hr2|].
          intros [|m' rest'] w4 _ _ _ H4; [apply framed_lift; discriminate|]. inversion H4 as [|? ? Hm' Hrest']; subst.
          apply framed_lift_bind. intros s' Es. apply as_span_inv in Es. subst m'. destruct (_ =? 0); [|apply framed_lift; discriminate].
          apply framed_ret. split; assumption.
        + intros [[r s'] rest'] w2 _ _ _ [H1 H2]. cbn [fst snd] in H1, H2.
          eapply (framed_bind _ _ _ (fun s'' w' => backed w' (MSpan s''))); [apply mono_if; [apply mono_span_update|apply mono_span_append]|intros; apply mono_ret| |].
          * destruct upd; [apply framed_span_update, H1|apply framed_span_append, H1].
          * intros s'' w3 HI3 _ _ H3. apply framed_ret. cbn [fst snd]. constructor; [exact H3|eapply all_backed_incl; eassumption].
    Qed.
    Lemma framed_var_append v instants rows cols upd w : has w (va_cid v) ->
      framed (var_append hash build v instants rows cols upd) w (fun c w' => has w' c).
    Proof.
      intros HV. unfold var_append.
      assert (M : forall l starts, mono (obind (ofold (append_step hash build v instants rows cols) (va_cid v, l, upd) starts)
          (fun x => let '(_, spans0, _) := x in save_spans hash spans0))).
      { intros l starts. apply mono_bind; [apply mono_ofold; intros s x; apply mono_append_step; exact Mb|]. intros [[r sp] u]. apply mono_save_spans. }
      eapply framed_bind; [apply mono_tail_spans|intros l; apply mono_bind; [apply mono_lift|intros; apply M]|apply framed_tail_spans, HV|].
      intros spans w1 _ L1 F1 HS. apply framed_lift_bind. intros starts _.
      eapply (framed_bind _ _ _ (fun (x : cid * list mmstruct * bool) w' => Forall (backed w') (snd (fst x)))).
      - apply mono_ofold. intros s x. apply mono_append_step. exact Mb.
      - intros [[r sp] u]. apply mono_save_spans.
      - apply framed_fold; [intros s x; apply mono_append_step; exact Mb| |exact L1|exact F1|exact HS].
        intros [[r sp] u] x w2 _ _ H2. apply framed_append_step, H2.
      - intros [[r sp] u] w2 _ _ _ H2. apply framed_save_spans, H2.
    Qed.
  End Step.
End Frames.

(** Building reads nothing. *)
Lemma blind_finish {A} hash (E : elem A) level instants rows cols sidelen bits cs ss ts mx mn : blind (finish_op hash E level instants rows cols sidelen bits cs ss ts mx mn).
Proof.
  intros w st0. unfold finish_op. pose proof (save_tiles_indep hash st0 ts (mkSave w [] [] 0 0 0 0)) as SV.
  cbn [ss_store ss_links ss_refs ss_sizes ss_elided ss_snapshots ss_logs] in SV. rewrite SV.
  cbn [save ss_store ss_links ss_refs ss_sizes ss_elided ss_snapshots ss_logs]. rewrite <- app_assoc.
  match goal with |- ?f _ = _ => assert (B : blind f) by (apply blind_bind; [apply blind_lift|]; intros; apply blind_bind; [apply blind_lift|]; intros; apply blind_ret) end.
  apply B.
Qed.
Lemma blind_tile {A} (E : elem A) k lc rec sub g instants rows cols bits cs ts rc : (forall g h w b, blind (rec g h w b)) ->
  blind (tile_op E k lc rec sub g instants rows cols bits cs ts rc).
Proof.
  intros H. unfold tile_op. destruct (_ || _); [apply blind_ret|]. apply blind_bind; [apply blind_lift|]. intros mm. destruct (forallb _ _); [apply blind_ret|].
  apply blind_bind; [apply blind_lift|]. intros lf. apply blind_bind; [apply blind_lift|]. intros b.
  apply blind_bind; [destruct lf; [apply blind_lift|apply H]|]. intros; apply blind_ret.
Qed.
Lemma blind_super {A} hash (E : elem A) k lc : forall levels g instants rows cols bits, blind (super_op hash E k lc levels g instants rows cols bits).
Proof.
  induction levels as [|level sub IH]; intros g instants rows cols bits; cbn [super_op]; (destruct (negb _); [apply blind_lift|]); [apply blind_lift|].
  apply blind_bind; [apply blind_lift|]. intros cs. apply blind_bind; [apply blind_fold; intros; apply blind_tile; intros; apply IH|]. intros ts.
  apply blind_bind; [apply blind_lift|]. intros mx. apply blind_bind; [apply blind_lift|]. intros mn. apply blind_finish.
Qed.
Lemma blind_build {A} hash lc (D : dtype A) v data a b : blind (build_chunk hash lc D v data a b).
Proof.
  unfold build_chunk. destruct (a3_shape data) as [[n h] w]. apply blind_bind; [apply blind_lift|]. intros bits.
  apply blind_bind; [apply blind_super|]. intros; apply blind_ret.
Qed.

Lemma framed_read_tail {A} (D : dtype A) order fuel w c m : get_mm w c = Ok m -> framed (read_tail D order fuel m) w (fun _ _ => True).
Proof.
  intros G HL _. split; [auto|]. intros st0 HF. unfold read_tail in *. cbn [fst snd] in *. f_equal.
  apply bind_ext; [reflexivity|]. intros [[n h] k] _.
  assert (Hc : has w c) by (eapply has_get_mm, G). pose proof (written_walkable w c (laid_written w HL)) as HW.
  assert (HC : copied w (st0 ++ w) c).
  { intros x Hx. apply (laid_reached w c x HL Hc) in Hx. destruct (has_got w x Hx) as (b & Eb). rewrite Eb.
    apply store_get_in; [exact HF|]. apply in_or_app. right. apply store_get_some, Eb. }
  rewrite (mm_fill_window_copied w (st0 ++ w) c HW HC); [reflexivity|]. eapply loaded_covered; [exact HW|constructor|exact G].
Qed.

(** The arrays of a dataset are in the store. *)
Definition filed (w : store) (d : dataset) : Prop := forall v, In v (ds_vars d) -> has w (va_cid v).
Lemma filed_incl w w' d : incl w w' -> filed w d -> filed w' d.
Proof. intros HI H v Hv. eapply has_incl; [exact HI|apply H, Hv]. Qed.
Lemma in_replace v : forall vars x, In x (replace_var v vars) -> x = v \/ In x vars.
Proof.
  induction vars as [|y vars IH]; intros x; cbn [replace_var]; [intros []|]. destruct (bytes_eqb _ _).
  - intros [<-|H]; [left; reflexivity|right; right; exact H].
  - intros [<-|H]; [right; left; reflexivity|]. destruct (IH x H) as [E|E]; [left; exact E|right; right; exact E].
Qed.

Lemma framed_append {A} hash lc (D : dtype A) order fuel d name data w : filed w d ->
  framed (dataset_append hash lc D order fuel d name data) w (fun d' w' => filed w' d').
Proof.
  intros HD. unfold dataset_append. destruct (find_var name (ds_vars d)) as [v|] eqn:Ev; [|apply framed_lift; discriminate].
  assert (Hv : has w (va_cid v)) by (apply HD; apply find_some in Ev; apply Ev).
  assert (MV : forall a' upd, mono (let '(n, rows, cols) := a3_shape a' in var_append hash (build_chunk hash lc D v a') v n rows cols upd)).
  { intros a' upd. destruct (a3_shape a') as [[n h] k]. apply mono_var_append. intros; apply mono_build. }
  assert (FV : forall a' upd w1, incl w w1 -> framed (let '(n, rows, cols) := a3_shape a' in var_append hash (build_chunk hash lc D v a') v n rows cols upd) w1 (fun c w' => has w' c)).
  { intros a' upd w1 HI. destruct (a3_shape a') as [[n h] k]. apply framed_var_append; [intros; apply mono_build|intros; apply blind_build|]. eapply has_incl; eassumption. }
  assert (MT : forall tail : option mmstruct, mono (match tail with
    | Some m => obind (read_tail D order fuel m) (fun a => obind (olift (join3 a data)) (fun a' =>
        let '(n, rows, cols) := a3_shape a' in var_append hash (build_chunk hash lc D v a') v n rows cols true))
    | None => let '(n, rows, cols) := a3_shape data in var_append hash (build_chunk hash lc D v data) v n rows cols false
    end)).
  { intros [m|]; [|apply MV]. apply mono_bind; [intros st; apply extends_refl|]. intros a. apply mono_bind; [apply mono_lift|]. intros a'. apply MV. }
  eapply framed_bind; [apply mono_tail_data|intros tail; apply mono_bind; [apply MT|intros; apply mono_ret]|apply framed_tail_data, Hv|].
  intros tail w1 HI1 _ _ HT. eapply (framed_bind _ _ _ (fun c w' => has w' c)); [apply MT|intros; apply mono_ret| |].
  - destruct tail as [m|]; [|apply FV, HI1]. destruct (HT m eq_refl) as (c & G).
    eapply framed_bind; [intros st; apply extends_refl|intros a; apply mono_bind; [apply mono_lift|intros a'; apply MV]|apply (framed_read_tail _ _ _ _ c), G|].
    intros a w2 HI2 _ _ _. apply framed_lift_bind. intros a' _. apply FV. eapply incl_tran; eassumption.
  - intros c w2 HI2 _ _ Hc. apply framed_ret. intros x Hx. cbn [ds_vars] in Hx. apply in_replace in Hx. destruct Hx as [->|Hx]; [exact Hc|].
    eapply has_incl; [|apply HD, Hx]. eapply incl_tran; eassumption.
Qed.
Lemma get_dataset_frame st0 w c : has w c -> functional (st0 ++ w) -> get_dataset (st0 ++ w) c = get_dataset w c.
Proof.
  intros Hc HF. unfold get_dataset, retrieve. destruct (has_got w c Hc) as (b & Eb). rewrite Eb.
  rewrite (store_get_in (st0 ++ w) c b HF); [reflexivity|]. apply in_or_app. right. apply store_get_some, Eb.
Qed.
Lemma filed_loaded w c d : laid w -> get_dataset w c = Ok d -> filed w d.
Proof.
  intros HL E v Hv. unfold get_dataset in E. apply bind_inv in E. destruct E as (n & R & E). pose proof (laid_retrieve w c n HL R) as H.
  destruct n as [| |d']; try discriminate. injection E as <-. apply H. cbn [refs]. apply in_or_app. left. apply (in_map va_cid) in Hv. exact Hv.
Qed.
Lemma framed_event hash lc lg order fuel d e w : filed w d -> framed (run_event hash lc lg order fuel d e) w (fun d' w' => filed w' d').
Proof.
  intros HD. destruct e as [c|t n a| |]; cbn [run_event].
  - unfold add_variable. eapply framed_bind; [apply mono_save|intros; apply mono_ret|apply framed_save|].
    intros x w1 HI _ _ Hx. apply framed_ret. intros v Hv. cbn [ds_vars] in Hv. apply in_app_or in Hv. destruct Hv as [Hv|[<-|[]]]; [|exact Hx].
    eapply filed_incl; eassumption.
  - apply framed_append, HD.
  - eapply framed_bind; [apply mono_save|intros; apply mono_ret|apply framed_save|]. intros x w1 HI _ _ _. apply framed_ret. eapply filed_incl; eassumption.
  - eapply framed_bind; [apply mono_save|intros c st; apply extends_refl|apply framed_save|].
    intros c w1 _ L1 _ Hc. intros _ _. cbn [fst snd]. split; [intros x Ex; eapply filed_loaded; eassumption|]. intros st0 F0. f_equal. apply get_dataset_frame; assumption.
Qed.
