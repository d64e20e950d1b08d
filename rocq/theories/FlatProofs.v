(** * Variables whose configuration leaves no room: span size 0 or 1, or chunk size 0. *)
From Coq Require Import Permutation.
From Verif Require Import Base BaseFacts Spec FixedModel GeomModel GeomProofs BitmapModel DacModel DacProofs StreamModel StreamProofs ChunkModel ChunkStream NodeModel NodeProofs SuperModel ArrayModel DatasetModel DatasetProofs AppendProofs KeepProofs.
Ltac Zify.zify_post_hook ::= Z.div_mod_to_equations.
Arguments Nat.pow : simpl never.

(** [add_variable] accepts them. Such a variable has room for one chunk at most: what
    does not fit in it makes [append] panic, after it has written some objects. *)
Section Flat.
  Variables (hash : bytes -> cid) (rows cols cs ss : nat).
  Hypothesis Hhash : forall b, wf_cid (hash b).
  Hypothesis Fr : fits32 rows.
  Hypothesis Fc : fits32 cols.
  Hypothesis Fcs : fits32 cs.

  Record flat (st : store) (s : span) (T : nat) : Prop := {
    fl_anchored : anchored st (NMM (MSpan s)); fl_rows : sp_rows s = rows; fl_cols : sp_cols s = cols; fl_stride : sp_stride s = cs;
    fl_instants : sp_instants s = T; fl_top : T <= ss * cs;
    fl_spans : (sp_spans s = [] /\ T = 0) \/ exists c m, sp_spans s = [c] /\ get_mm st c = Ok m /\ mm_shape m = Ok (T, rows, cols) /\ 1 <= T }.
  Definition flat_tree (st : store) (root : cid) (T : nat) : Prop := wf_cid root /\ exists s, get_mm st root = Ok (MSpan s) /\ flat st s T.

  Lemma flat_incl st st' s T : incl st st' -> functional st' -> flat st s T -> flat st' s T.
  Proof.
    intros HI HF [H1 H2 H3 H4 H5 H6 H7]. constructor; auto; [eapply anchored_incl; eassumption|].
    destruct H7 as [H7|(c & m & E1 & E2 & E3)]; [left; exact H7|right]. exists c, m. split; [exact E1|]. split; [eapply get_mm_incl; eassumption|exact E3].
  Qed.
  Lemma flat_tree_incl st st' root T : incl st st' -> functional st' -> flat_tree st root T -> flat_tree st' root T.
  Proof.
    intros HI HF (W & s & G & H). split; [exact W|]. exists s. split; [eapply get_mm_incl; eassumption|eapply flat_incl; eassumption].
  Qed.
  Lemma flat_new st enc : flat st (span_new rows cols cs enc) 0.
  Proof.
    constructor; cbn [span_new sp_rows sp_cols sp_stride sp_instants sp_spans]; auto; [|apply Nat.le_0_l].
    split; [split; [|exact I]|intros x []]. constructor; cbn; auto; reflexivity.
  Qed.

  Lemma flat_tail_spans st root T : flat_tree st root T -> exists s, flat st s T /\ tail_spans cs root st = (st, Ok [MSpan s]).
  Proof.
    intros (_ & s & G & H). exists s. split; [exact H|]. unfold tail_spans, obind, oload. rewrite G. cbn [as_span olift tail_loop].
    unfold obind, olift. cbn [as_span]. rewrite (fl_stride _ _ _ H), Nat.ltb_irrefl. reflexivity.
  Qed.

  Lemma flat_tail_data st root T : flat_tree st root T ->
    exists o, tail_data cs root st = (st, Ok o) /\ forall m, o = Some m -> mm_shape m = Ok (T, rows, cols).
  Proof.
    intros H. destruct (flat_tail_spans st root T H) as (s & HS & E). unfold tail_data. unfold obind at 1. rewrite E. unfold obind, olift. cbn [as_span].
    destruct (fl_spans _ _ _ HS) as [[E0 _]|(ci & m & E0 & Gm & Sm & _)]; rewrite E0; cbn [length Nat.eqb].
    - exists None. split; [reflexivity|]. intros; discriminate.
    - unfold span_last. rewrite E0. cbn [length]. change (usub 1 1) with (Ok 0). cbn [bind]. change (nth_res [ci] 0) with (Ok ci).
      unfold oload. rewrite Gm. unfold instants_of. rewrite Sm. cbn [bind oret].
      eexists. split; [reflexivity|]. intros m' Em. destruct (T <? cs); [|discriminate]. injection Em as <-. exact Sm.
  Qed.

  (** [post] holds of what a successful [span_append] answers. *)
  Lemma keeps_span_append s m n r c st : functional st -> anchored st (NMM (MSpan s)) -> anchored st (NMM m) -> mm_shape m = Ok (n, r, c) ->
    fits32 (sp_instants s + n) -> fits32 (S (length (sp_spans s))) ->
    keeps (span_append hash s m) st (fun s' st' => exists ci, wf_cid ci /\ get_mm st' ci = Ok m /\ (r, c) = (sp_rows s, sp_cols s) /\ n <= sp_stride s /\
      s' = mkSpan (sp_instants s + n) (sp_rows s) (sp_cols s) (sp_stride s) (sp_spans s ++ [ci]) (sp_enc s) /\ anchored st' (NMM (MSpan s'))).
  Proof.
    intros HF As Am Sm F1 F2. unfold span_append.
    eapply (keeps_bind _ _ _ (fun _ st' => st' = st)); [mono_auto|intros _; mono_auto| |].
    - destruct (0 <? length (sp_spans s)); [|apply keeps_ret; reflexivity].
      apply keeps_lift_bind. intros x _. unfold keeps, obind, oload. destruct (get_mm st x) as [y| | |]; cbn [fst snd];
        try (intros _; split; [apply grown_refl|intros; discriminate]).
      unfold olift. destruct (instants_of y) as [z| | |]; cbn [fst snd];
        try (intros _; split; [apply grown_refl|intros; discriminate]).
      destruct (z =? sp_stride s); cbn [fst snd oret]; intros _; (split; [apply grown_refl|auto]).
    - intros _ st1 _ _ ->. apply keeps_lift_bind. intros x Ex. rewrite Sm in Ex. injection Ex as <-.
      destruct (Nat.eqb_spec r (sp_rows s)) as [E1|]; cbn [negb orb]; [|apply keeps_lift; intros; discriminate].
      destruct (Nat.eqb_spec c (sp_cols s)) as [E2|]; cbn [negb orb]; [|apply keeps_lift; intros; discriminate].
      destruct (Nat.ltb_spec (sp_stride s) n) as [|L]; [apply keeps_lift; intros; discriminate|].
      eapply (keeps_bind _ _ _ (fun ci st' => wf_cid ci /\ get_mm st' ci = Ok m)); [apply mono_save|intros; apply mono_ret|
        apply ok_keeps; apply ok_save; [exact Am|exact Hhash|auto]|].
      intros ci st' HI HF' (Wc & G). apply keeps_ret. exists ci. split; [exact Wc|]. split; [exact G|]. split; [congruence|]. split; [exact L|].
      rewrite E1, E2. split; [reflexivity|]. destruct As as [[[W1 W2 W3 W4 W5 W6] _] HR]. split; [split; [|exact I]|].
      + constructor; cbn [sp_instants sp_rows sp_cols sp_stride sp_spans]; auto.
        * rewrite app_length. cbn [length]. rewrite Nat.add_1_r. exact F2.
        * apply Forall_app. auto.
      + cbn [refs mm_refs sp_spans] in *. intros x Hx. apply in_app_or in Hx. destruct Hx as [Hx|[<-|[]]].
        * eapply has_incl; [exact HI|]. apply HR, Hx.
        * eapply has_get_mm, G.
  Qed.

  Lemma fits32_2 : fits32 2.
  Proof. reflexivity. Qed.

  (** Opening a new span panics. *)
  Lemma flat_full st s T r c enc (post : cid * span * list mmstruct -> store -> Prop) : functional st -> ss <= 1 -> 1 <= cs -> fits32 r -> fits32 c ->
    flat st s T -> T = ss * cs ->
    keeps (obind (save_spans hash [MSpan s]) (fun root' => obind (create_open_span hash ss cs r c enc root') (fun root'' =>
      obind (tail_spans cs root'') (fun spans' => match spans' with
        | [] => olift Panic
        | m' :: rest' => obind (olift (as_span m')) (fun s' => if length (sp_spans s') =? 0 then oret (root'', s', rest') else olift Panic)
        end)))) st post.
  Proof.
    intros HF Hss Hcs Fr' Fc' HS HT.
    assert (M3 : forall root'', mono (obind (tail_spans cs root'') (fun spans' => match spans' with
        | [] => olift Panic
        | m' :: rest' => obind (olift (as_span m')) (fun s' => if length (sp_spans s') =? 0 then oret (root'', s', rest') else olift Panic)
        end))).
    { intros. apply mono_bind; [apply mono_tail_spans|]. intros [|m' rest']; mono_auto. }
    eapply (keeps_bind _ _ _ (fun root' st' => flat_tree st' root' T)); [apply mono_save_spans|intros; apply mono_bind; [apply mono_create_open_span|intros; apply M3]| |].
    { cbn [save_spans update_up]. change (obind (oret (MSpan s)) (fun root => osave hash (NMM root))) with (osave hash (NMM (MSpan s))).
      apply ok_keeps, ok_save; [apply HS|exact Hhash|]. intros ci st' HI HF' W G. split; [exact W|]. exists s. split; [exact G|eapply flat_incl; eassumption]. }
    intros root' st1 _ HF1 H1.
    eapply (keeps_bind _ _ _ (fun root'' st' => exists s2, get_mm st' root'' = Ok (MSpan s2) /\ length (sp_spans s2) = 2 /\ sp_stride s2 <= cs));
      [apply mono_create_open_span|intros; apply M3| |].
    - unfold create_open_span. destruct (flat_tail_spans st1 root' T H1) as (s1 & HS1 & E1).
      unfold obind at 1. unfold keeps. rewrite E1. change (keeps (obind (open_loop hash ss r c enc (span_new r c cs enc) (MSpan s1) [])
        (fun x => let '(s0, ancestors) := x in obind (update_up hash (MSpan s0) ancestors) (fun m => osave hash (NMM m)))) st1
        (fun root'' st' => exists s2, get_mm st' root'' = Ok (MSpan s2) /\ length (sp_spans s2) = 2 /\ sp_stride s2 <= cs)).
      assert (A0 : forall k st, fits32 k -> anchored st (NMM (MSpan (span_new r c k enc)))).
      { intros k st0 Fk. split; [split; [|exact I]|intros x []]. constructor; cbn; auto; reflexivity. }
      assert (Fsc : fits32 (ss * cs)) by (eapply fits32_le; [|exact Fcs]; clear -Hss; nia).
      eapply (keeps_bind _ _ _ (fun x st' => exists s2, x = (s2, []) /\ anchored st' (NMM (MSpan s2)) /\ length (sp_spans s2) = 2 /\ sp_stride s2 <= cs)).
      { apply mono_open_loop. }
      { intros [s0 anc]. apply mono_bind; [apply mono_update_up|intros; apply mono_save]. }
      + cbn [open_loop].
        eapply keeps_bind; [apply mono_span_append|intros; apply mono_bind; [apply mono_span_append|intros; apply mono_ret]| |].
        { apply (keeps_span_append (span_new r c (ss * sp_stride (span_new r c cs enc)) enc) (MSpan s1) T rows cols st1 HF1).
          - cbn [span_new sp_stride]. apply A0. exact Fsc.
          - apply HS1.
          - cbn [mm_shape]. rewrite (fl_rows _ _ _ HS1), (fl_cols _ _ _ HS1), (fl_instants _ _ _ HS1). reflexivity.
          - cbn [span_new sp_instants]. rewrite HT. exact Fsc.
          - reflexivity. }
        intros r1 st2 HI2 HF2 (ci & Wc & G & Erc & Hn & -> & Ar). cbn [span_new sp_instants sp_rows sp_cols sp_stride sp_spans sp_enc app] in *.
        eapply keeps_bind; [apply mono_span_append|intros; apply mono_ret| |].
        { apply (keeps_span_append _ (MSpan (span_new r c cs enc)) 0 r c st2 HF2 Ar); cbn [sp_instants sp_spans length]; auto.
          - rewrite !Nat.add_0_r, Nat.add_0_l, HT. exact Fsc.
          - exact fits32_2. }
        intros r2 st3 HI3 HF3 (cj & Wj & Gj & _ & _ & -> & Ar2). apply keeps_ret. eexists. split; [reflexivity|]. split; [exact Ar2|].
        cbn [sp_spans sp_stride length app]. split; [reflexivity|]. clear -Hss. nia.
      + intros x st2 _ HF2 (s2 & -> & A2 & L2 & T2).
        change (keeps (osave hash (NMM (MSpan s2))) st2 (fun root'' st' => exists s2, get_mm st' root'' = Ok (MSpan s2) /\ length (sp_spans s2) = 2 /\ sp_stride s2 <= cs)).
        apply ok_keeps, ok_save; [exact A2|exact Hhash|]. intros cj st' _ _ _ G. exists s2. auto.
    - intros root'' st2 _ _ (s2 & G & L & Lt).
      assert (E2 : tail_spans cs root'' st2 = (st2, Ok [MSpan s2])).
      { unfold tail_spans, obind, oload. rewrite G. cbn [as_span olift tail_loop]. unfold obind, olift. cbn [as_span].
        destruct (Nat.ltb_spec cs (sp_stride s2)); [exfalso; clear -H Lt; lia|reflexivity]. }
      unfold keeps, obind. rewrite E2. cbn [as_span olift]. rewrite L. cbn [Nat.eqb olift fst snd]. intros _. split; [apply grown_refl|intros; discriminate].
  Qed.

  Lemma flat_var_append v (build : nat -> nat -> op mmstruct) n r c upd st T : va_chunk_size v = cs -> va_span_size v = ss ->
    (ss <= 1 \/ cs = 0) -> fits32 r -> fits32 c -> (forall a b, mono (build a b)) ->
    (forall st start len, functional st -> 1 <= cs -> start < n -> len = Nat.min cs (n - start) ->
       keeps (build start len) st (fun m st' => anchored st' (NMM m) /\ mm_shape m = Ok (len, r, c))) ->
    functional st -> flat_tree st (va_cid v) T ->
    keeps (var_append hash build v n r c upd) st (fun ci st' => exists T', flat_tree st' ci T').
  Proof.
    intros Hvc Hvs Hodd Fr' Fc' Hbm Hbuild HF HT. unfold var_append. rewrite Hvc.
    destruct (flat_tail_spans st _ T HT) as (s & HS & E).
    eapply (keeps_bind _ _ _ (fun l st' => st' = st /\ l = [MSpan s])); [apply mono_tail_spans| | |].
    { intros spans. apply mono_bind; [apply mono_lift|]. intros l.
      apply mono_bind; [apply mono_ofold; intros s0 x; apply mono_append_step; exact Hbm|]. intros [[r0 sp] u]. apply mono_save_spans. }
    { intros _. rewrite E. split; [apply grown_refl|]. intros x Ex. injection Ex as <-. auto. }
    intros l st1 _ _ (-> & ->).
    apply keeps_lift_bind. intros starts Est. unfold step_starts in Est. destruct (Nat.eqb_spec cs 0) as [|Ncs]; [discriminate|]. injection Est as <-.
    assert (Hcs : 1 <= cs) by (clear -Ncs; lia). assert (Hss : ss <= 1) by (clear -Hodd Ncs; lia).
    set (I := fun (x : cid * list mmstruct * bool) (l : list nat) (st : store) => Forall (fun start => start < n) l /\
                exists s' T' u root, x = (root, [MSpan s'], u) /\ flat st s' T').
    eapply (keeps_bind _ _ _ (fun x st' => I x [] st')); [apply mono_ofold; intros s0 x; apply mono_append_step; exact Hbm|intros [[r0 sp] u]; apply mono_save_spans| |].
    - apply keeps_fold; [intros; apply mono_append_step; exact Hbm| |exact HF|].
      + clear s st T HF HT HS E. intros x start l st HF (HL & s & T & u & root & -> & HS).
        inversion_clear HL as [|? ? Hst HL']. unfold append_step. rewrite Hvc, Hvs.
        assert (Elen : Nat.min (start + cs) n - start = Nat.min cs (n - start)) by (clear; lia).
        eapply keeps_bind; [apply Hbm| |rewrite Elen; apply (Hbuild st start _ HF Hcs Hst eq_refl)|].
        { intros chunk. apply mono_bind; [apply mono_lift|]. intros s0. apply mono_bind.
          - apply mono_if; [|apply mono_ret]. apply mono_bind; [apply mono_save_spans|]. intros r1.
            apply mono_bind; [apply mono_create_open_span|]. intros r2. apply mono_bind; [apply mono_tail_spans|].
            intros [|m' rest']; mono_auto.
          - intros [[r0 s'] rest']. apply mono_bind; [destruct u; apply mono_span_append|intros; apply mono_ret]. }
        intros chunk st1 HI HF1 (Ach & Sch). apply (flat_incl st st1 s T HI HF1) in HS.
        apply keeps_lift_bind. intros x Ex. injection Ex as <-.
        eapply (keeps_bind _ _ _ (fun y st' => st' = st1 /\ y = (root, s, []) /\ T <> ss * cs)).
        { apply mono_if; [|apply mono_ret]. apply mono_bind; [apply mono_save_spans|]. intros r1.
          apply mono_bind; [apply mono_create_open_span|]. intros r2. apply mono_bind; [apply mono_tail_spans|].
          intros [|m' rest']; mono_auto. }
        { intros [[r0 s'] rest']. apply mono_bind; [destruct u; apply mono_span_append|intros; apply mono_ret]. }
        * rewrite (fl_instants _ _ _ HS), (fl_stride _ _ _ HS). destruct (Nat.eqb_spec T (ss * cs)) as [Ef|Nf].
          -- apply (flat_full st1 s T r c (va_enc v)); assumption.
          -- apply keeps_ret. auto.
        * intros y st2 _ _ (-> & -> & Nf).
          assert (Flen : forall k, k <= cs -> fits32 k) by (intros k Hk; eapply fits32_le; [exact Hk|exact Fcs]).
          assert (E1 : ss = 1).
          { pose proof (fl_top _ _ _ HS) as Htop. clear -Hss Nf Htop. assert (D : ss = 0 \/ ss = 1) by lia. destruct D as [D|D]; [|exact D]. rewrite D in *. lia. }
          set (len := Nat.min cs (n - start)) in *. assert (Hlen : 1 <= len <= cs) by (unfold len; clear -Hst Hcs; lia).
          eapply (keeps_bind _ _ _ (fun s' st' => exists T', flat st' s' T')).
          { destruct u; apply mono_span_append. }
          { intros; apply mono_ret. }
          -- assert (Hone : forall s0, anchored st1 (NMM (MSpan s0)) -> sp_spans s0 = [] -> sp_instants s0 = 0 -> sp_rows s0 = rows -> sp_cols s0 = cols -> sp_stride s0 = cs ->
               keeps (span_append hash s0 chunk) st1 (fun s' st' => exists T', flat st' s' T')).
             { intros s0 A0 E0 I0 R0 C0 S0.
               eapply keeps_post; [apply mono_span_append|apply (keeps_span_append s0 chunk len r c st1 HF1 A0 Ach Sch)|].
               - rewrite I0. apply Flen, Hlen.
               - rewrite E0. reflexivity.
               - intros s' st' HI' HF' (ci & Wc & G & Erc & Hn & -> & As'). exists len. rewrite I0, E0, R0, C0, S0 in *. injection Erc as -> ->.
                 constructor; cbn [sp_rows sp_cols sp_stride sp_instants sp_spans app]; auto; [rewrite E1, Nat.mul_1_l; apply Hlen|].
                 right. exists ci, chunk. split; [reflexivity|]. split; [exact G|]. split; [exact Sch|apply Hlen]. }
             destruct (fl_spans _ _ _ HS) as [[Es E0]|(ci & m & Es & Gm & Shm & HT1)].
             ++ destruct u.
                ** unfold span_update. rewrite Es. cbn [removelast length]. apply Hone; cbn [sp_spans sp_instants sp_rows sp_cols sp_stride]; auto; try apply HS.
                   destruct (fl_anchored _ _ _ HS) as [[[W1 W2 W3 W4 W5 W6] _] _]. split; [split; [|exact Logic.I]|intros x []]. constructor; cbn; auto; reflexivity.
                ** apply Hone; try apply HS; auto. rewrite (fl_instants _ _ _ HS). exact E0.
             ++ destruct u.
                ** unfold span_update. rewrite Es. cbn [removelast length]. apply Hone; cbn [sp_spans sp_instants sp_rows sp_cols sp_stride]; auto; try apply HS.
                   destruct (fl_anchored _ _ _ HS) as [[[W1 W2 W3 W4 W5 W6] _] _]. split; [split; [|exact Logic.I]|intros x []]. constructor; cbn; auto; reflexivity.
                ** (* one chunk that is not full, and no update *)
                   { apply (keeps_bind _ _ _ (fun _ _ => False)); [mono_auto|intros _; mono_auto| |intros ? ? _ _ []].
                     rewrite Es. cbn [length Nat.ltb Nat.leb]. apply keeps_lift_bind. intros x Ex. unfold span_last in Ex. rewrite Es in Ex. cbn in Ex. injection Ex as <-.
                     unfold keeps, obind, oload. rewrite Gm. unfold olift, instants_of. rewrite Shm. cbn [bind]. rewrite (fl_stride _ _ _ HS).
                     destruct (Nat.eqb_spec T cs) as [ET|_]; [|cbn [fst snd]; intros _; split; [apply grown_refl|intros; discriminate]].
                     exfalso. apply Nf. rewrite E1, Nat.mul_1_l. exact ET. }
          -- intros s' st' HI' HF' (T' & HS'). apply keeps_ret. split; [exact HL'|]. exists s', T', false, root. auto.
      + split; [|exists s, T, upd, (va_cid v); auto].
        apply Forall_forall. intros x Hx. apply in_map_iff in Hx. destruct Hx as (i & <- & Hi). apply in_seq in Hi.
        assert (i < (n + cs - 1) / cs) by (clear -Hi; lia). clear -H Hcs.
        pose proof (Nat.mul_div_le (n + cs - 1) cs ltac:(lia)). nia.
    - intros x st1 _ HF1 (_ & s' & T' & u & root & -> & HS').
      cbn [save_spans update_up]. change (obind (oret (MSpan s')) (fun root => osave hash (NMM root))) with (osave hash (NMM (MSpan s'))).
      apply ok_keeps, ok_save; [apply HS'|exact Hhash|]. intros ci st' HI HF' W G. exists T'. split; [exact W|]. exists s'. split; [exact G|eapply flat_incl; eassumption].
  Qed.
End Flat.
