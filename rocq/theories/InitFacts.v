(** * InitFacts: when a model can be built; negation; equality. *)
From Verif Require Import PyBase PyFacts Toposort ToposortFacts LayerFacts Signature SignatureFacts Expr Model ModelSpec ModelFacts CallFacts.
From Coq Require Import Relations.

Section InitFacts.
  Context {V : Type} (A : alg V).
  Notation model := (model (V:=V)).
  Notation comp := (comp (V:=V)).

  Lemma NoDup_map_names (l : list sym) : NoDup l -> key_inj sname l -> NoDup (map sname l).
  Proof.
    induction 1 as [|d l Hd Hl IH]; simpl; intros Hinj; constructor.
    - intros Hi. apply in_map_iff in Hi as (d' & He & Hd'). apply Hd. rewrite <- (Hinj d' d); simpl; auto.
    - apply IH. intros x y Hx Hy; apply Hinj; simpl; auto.
  Qed.

  Lemma in_app_incl {B} (l m : list B) x : In x (l ++ m) <-> In x l \/ In x m.
  Proof. apply in_app_iff. Qed.

  Definition refers_other (items : dict sym comp) (x y : sym) : Prop := refers items x y /\ y <> x.

  Lemma proper_edge_sym ord (d : dict sym comp) x y : set_order ord ->
    proper_edge (sym_conn ord d) x y <-> refers_other d x y.
  Proof. intros Ho. unfold proper_edge, refers_other. rewrite dep_edge_sym_conn by exact Ho. reflexivity. Qed.

  Lemma clos_trans_iff {B} (R S : B -> B -> Prop) : (forall x y, R x y <-> S x y) ->
    forall x y, clos_trans B R x y <-> clos_trans B S x y.
  Proof.
    intros He x y; split; induction 1; try (apply t_step; apply He; assumption); eapply t_trans; eauto.
  Qed.

  Lemma refers_other_perm (d d' : dict sym comp) : Permutation d d' -> forall x y, refers_other d x y <-> refers_other d' x y.
  Proof. intros Hp x y. unfold refers_other. rewrite (refers_perm d d' Hp). reflexivity. Qed.

  Lemma init_model_succeeds ord (items : dict sym comp) :
    set_order ord -> is_dict items -> symbolic items -> distinct_names items ->
    (forall k, In k (dkeys items) -> is_par k = false) ->
    (forall s, ~ clos_trans sym (refers_other items) s s) ->
    (exists k t, refers_other items k t) ->
    exists m, init_model ord items = Ok m.
  Proof.
    intros Ho Hd Hs Hn Hpar Hacyc (k & t & Hkt).
    assert (Hp := sort_items_perm items). set (d := sort_items items) in *.
    assert (Hdd : NoDup (dkeys d)) by (eapply Permutation_NoDup; [apply Permutation_map; exact Hp|exact Hd]).
    unfold init_model. fold d. rewrite connectivity_ok by (eapply symbolic_perm; eauto). cbn [bind].
    assert (Hndc : NoDup (dkeys (sym_conn ord d))) by (rewrite dkeys_sym_conn; exact Hdd).
    destruct (toposort_total (sym_conn ord d)) as [(layers & Ht)|He].
    2:{ exfalso. apply toposort_circular_iff in He as (x & Hx); [|exact Hndc]. apply (Hacyc x).
        eapply clos_trans_iff; [|exact Hx]. intros a b. rewrite proper_edge_sym by exact Ho. apply refers_other_perm; exact Hp. }
    pose proof (toposort_depth _ _ Hndc Ht) as Hds.
    unfold classify. rewrite Ht. cbn [bind].
    assert (Hk : exists i, at_layer layers (S i) k).
    { assert (Hke : proper_edge (sym_conn ord d) k t).
      { apply proper_edge_sym; [exact Ho|]. eapply refers_other_perm; [symmetry; exact Hp|exact Hkt]. }
      assert (Hnk : node (sym_conn ord d) k).
      { left. destruct Hke as [(ds & Hin & _) _]. change k with (fst (k, ds)). apply in_map; exact Hin. }
      apply (ds_node _ _ Hds) in Hnk as (i & Hi). destruct (ds_below _ _ Hds i k t Hi Hke) as (j & Hj & _).
      exists (i - 1). replace (S (i - 1)) with i by lia. exact Hi. }
    destruct Hk as (i & L & HL & HkL). destruct layers as [|l0 rest]; [discriminate|]. simpl in HL.
    destruct (rev rest) as [|top mid] eqn:Hr.
    { apply (f_equal (@rev (list sym))) in Hr. rewrite rev_involutive in Hr. subst rest. destruct i; discriminate. }
    assert (Hrest : rest = rev mid ++ [top]) by (rewrite <- (rev_involutive rest), Hr; reflexivity).
    assert (Hupper : forall s, In s (concat rest) -> is_par s = false).
    { intros s Hs'. apply at_layer_concat in Hs' as (j & M & HM & HsM).
      destruct (ds_pred _ _ Hds j s) as (y & Hy & _); [exists M; auto|].
      apply Hpar. destruct Hy as [(ds & Hin & _) _].
      apply (dkeys_perm _ _ Hp). rewrite <- (dkeys_sym_conn ord d). change s with (fst (s, ds)). apply in_map; exact Hin. }
    assert (Hl0 : NoDup l0 /\ key_inj sname l0).
    { split.
      - pose proof (ds_nodup _ _ Hds) as Hnd. simpl in Hnd. clear -Hnd. induction l0 as [|x l IH]; [constructor|].
        simpl in Hnd; inv Hnd. constructor; [|auto]. intros Hx; apply H1, in_or_app; auto.
      - intros x y Hx Hy. apply Hn.
        + apply (symbol_of_perm _ _ Hp), (node_sym_conn ord); [exact Ho|]. apply (ds_node _ _ Hds). exists 0, l0; auto.
        + apply (symbol_of_perm _ _ Hp), (node_sym_conn ord); [exact Ho|]. apply (ds_node _ _ Hds). exists 0, l0; auto. }
    destruct Hl0 as [Hl0 Hinj].
    rewrite make_signature_intro.
    - cbn [bind]. replace (_ || _) with false; [eauto|]. symmetry. apply orb_false_iff. split.
      + apply not_true_iff_false. intros He. apply existsb_exists in He as (s & Hs' & Hps).
        rewrite in_sort_by, in_ord in Hs' by exact Ho. rewrite Hupper in Hps; [discriminate|].
        rewrite Hrest, concat_app. apply in_or_app; right. simpl. rewrite app_nil_r. exact Hs'.
      + apply not_true_iff_false. intros He. apply existsb_exists in He as (s & Hs' & Hps).
        rewrite in_sort_by in Hs'. apply (in_perm_iff _ _ s (flat_map_perm ord (rev mid) Ho)) in Hs'.
        rewrite Hupper in Hps; [discriminate|]. rewrite Hrest, concat_app. apply in_or_app; auto.
    - assert (Hs0 : NoDup (sort_by sname (ord l0))).
      { apply NoDup_sort_by. eapply Permutation_NoDup; [symmetry; apply Ho|exact Hl0]. }
      apply NoDup_map_names.
      + apply NoDup_app_disj; [apply NoDup_filter; exact Hs0|apply NoDup_filter; exact Hs0|].
        intros x Hx Hy. apply filter_In in Hx as [_ Hx]. apply filter_In in Hy as [_ Hy].
        rewrite Hy in Hx. discriminate.
      + assert (Hsub : forall x, In x (filter (fun s => negb (is_par s) && negb (dmem d s)) (sort_by sname (ord l0)) ++
                                  filter is_par (sort_by sname (ord l0))) -> In x l0).
        { intros x Hx. apply in_app_iff in Hx as [Hx|Hx]; apply filter_In in Hx as [Hx _];
            rewrite in_sort_by, in_ord in Hx by exact Ho; exact Hx. }
        intros x y Hx Hy. apply Hinj; apply Hsub; assumption.
  Qed.

  (** A model with a proper cycle is rejected. *)
  Lemma init_model_circular ord (items : dict sym comp) :
    set_order ord -> is_dict items -> symbolic items ->
    init_model ord items = Raise CircularDependencyError <-> exists s, clos_trans sym (refers_other items) s s.
  Proof.
    intros Ho Hd Hs. assert (Hp := sort_items_perm items). set (d := sort_items items) in *.
    assert (Hdd : NoDup (dkeys d)) by (eapply Permutation_NoDup; [apply Permutation_map; exact Hp|exact Hd]).
    unfold init_model. fold d. rewrite connectivity_ok by (eapply symbolic_perm; eauto). cbn [bind].
    assert (Hndc : NoDup (dkeys (sym_conn ord d))) by (rewrite dkeys_sym_conn; exact Hdd).
    assert (Hiff : toposort (sym_conn ord d) = Raise CircularDependencyError <-> exists s, clos_trans sym (refers_other items) s s).
    { rewrite toposort_circular_iff by exact Hndc.
      split; intros (x & Hx); exists x; (eapply clos_trans_iff; [|exact Hx]); intros a b;
        rewrite proper_edge_sym by exact Ho; [|symmetry]; apply refers_other_perm; exact Hp. }
    rewrite <- Hiff. unfold classify.
    destruct (toposort_total (sym_conn ord d)) as [(layers & Ht)|He].
    - rewrite Ht. cbn [bind]. split; [|discriminate]. intros Hc. exfalso.
      destruct layers as [|l0 rest]; [discriminate|]. destruct (rev rest) as [|top mid]; [discriminate|].
      unfold make_signature, mk_signature in Hc. destruct (_ && _) in Hc; [|discriminate]. cbn [bind] in Hc.
      destruct (_ || _) in Hc; discriminate.
    - rewrite He. simpl. tauto.
  Qed.

  (** *** replacing components by ones that mention the same symbols *)
  Lemma mentions_free e s : In s (free_symbols e) <-> mentions e s /\ is_der s = false.
  Proof.
    rewrite in_free_symbols. unfold mentions. split.
    - intros (t & Ht & ->). destruct t as [n|n|y ps]; simpl; split; auto. right; eauto.
    - intros [[Hs|(y & ps & Hs & ->)] Hd].
      + exists s. split; [exact Hs|]. destruct s; auto; discriminate.
      + exists (SDer y ps); auto.
  Qed.
  Lemma mentions_der e s : In s (deriv_atoms e) <-> mentions e s /\ is_der s = true.
  Proof.
    rewrite in_deriv_atoms. unfold mentions. split.
    - intros [H1 H2]; auto.
    - intros [[Hs|(y & ps & Hs & ->)] Hd]; [auto|discriminate].
  Qed.
  Lemma seperate_symbols_mentions ord e e' : set_order ord ->
    (forall s, mentions e s <-> mentions e' s) ->
    (forall s t, mentions e s -> mentions e t -> sname s = sname t -> s = t) ->
    seperate_symbols ord e = seperate_symbols ord e'.
  Proof.
    intros Ho He Hinj. unfold seperate_symbols.
    assert (Hp : Permutation (ord (free_symbols e)) (ord (free_symbols e'))).
    { etransitivity; [apply Ho|]. etransitivity; [|symmetry; apply Ho].
      apply NoDup_Permutation; [apply NoDup_dedup|apply NoDup_dedup|]. intros s. rewrite !mentions_free, He. reflexivity. }
    assert (Hq : Permutation (ord (deriv_atoms e)) (ord (deriv_atoms e'))).
    { etransitivity; [apply Ho|]. etransitivity; [|symmetry; apply Ho].
      apply NoDup_Permutation; [apply NoDup_dedup|apply NoDup_dedup|]. intros s. rewrite !mentions_der, He. reflexivity. }
    assert (Hv : forall s, In s (filter (fun s => negb (is_par s)) (ord (free_symbols e)) ++ ord (deriv_atoms e)) -> mentions e s).
    { intros s Hs. apply in_app_iff in Hs as [Hs|Hs].
      - apply filter_In in Hs as [Hs _]. rewrite in_ord in Hs by exact Ho. apply mentions_free in Hs. tauto.
      - rewrite in_ord in Hs by exact Ho. apply mentions_der in Hs. tauto. }
    assert (Hw : forall s, In s (filter is_par (ord (free_symbols e))) -> mentions e s).
    { intros s Hs. apply filter_In in Hs as [Hs _]. rewrite in_ord in Hs by exact Ho. apply mentions_free in Hs. tauto. }
    f_equal; apply sort_by_perm_eq.
    - intros s t Hs Ht; apply Hinj; auto.
    - apply Permutation_app; [apply filter_perm; exact Hp|exact Hq].
    - intros s t Hs Ht; apply Hinj; auto.
    - apply filter_perm; exact Hp.
  Qed.

  Definition same_shape (c c' : comp) : Prop :=
    match c, c' with CExpr e, CExpr e' => forall s, mentions e s <-> mentions e' s | _, _ => False end.

  Lemma insert_map_keys (f : sym -> comp -> comp) x l :
    insert (fun a b : sym * comp => strleb (sname (fst a)) (sname (fst b))) (fst x, f (fst x) (snd x))
           (map (fun kc => (fst kc, f (fst kc) (snd kc))) l) =
    map (fun kc => (fst kc, f (fst kc) (snd kc)))
        (insert (fun a b : sym * comp => strleb (sname (fst a)) (sname (fst b))) x l).
  Proof.
    induction l as [|y l IH]; simpl; [reflexivity|].
    destruct (strleb (sname (fst x)) (sname (fst y))); simpl; [reflexivity|]. rewrite IH; reflexivity.
  Qed.
  Lemma sort_items_map (f : sym -> comp -> comp) (items : dict sym comp) :
    sort_items (map (fun kc => (fst kc, f (fst kc) (snd kc))) items) =
    map (fun kc => (fst kc, f (fst kc) (snd kc))) (sort_items items).
  Proof.
    unfold sort_items, sort_by. induction items as [|x items IH]; simpl; [reflexivity|].
    rewrite IH. apply insert_map_keys.
  Qed.
  Lemma sort_items_sorted (items : dict sym comp) : sort_items (sort_items items) = sort_items items.
  Proof. unfold sort_items. apply sort_by_id, sort_by_sorted. Qed.

  Lemma init_model_map ord (items : dict sym comp) (m : model) (f : sym -> comp -> comp) :
    set_order ord -> distinct_names items ->
    (forall k c, In (k, c) items -> same_shape c (f k c)) -> init_model ord items = Ok m ->
    exists m', init_model ord (map (fun kc => (fst kc, f (fst kc) (snd kc))) items) = Ok m' /\
      m_dict m' = map (fun kc => (fst kc, f (fst kc) (snd kc))) (m_dict m) /\
      m_conn m' = m_conn m /\ m_indep m' = m_indep m /\ m_params m' = m_params m /\
      m_dep m' = m_dep m /\ m_inter m' = m_inter m /\ m_sig m' = m_sig m.
  Proof.
    intros Ho Hn Hf Hi. destruct (init_model_inv _ _ _ Hi) as (Hs & H1 & H2 & Hc).
    unfold init_model. rewrite sort_items_map. set (d := sort_items items) in *.
    set (g := fun kc : sym * comp => (fst kc, f (fst kc) (snd kc))).
    assert (Hp := sort_items_perm items). fold d in Hp.
    assert (Hfd : forall k c, In (k, c) d -> exists e e', c = CExpr e /\ f k c = CExpr e' /\ forall s, mentions e s <-> mentions e' s).
    { intros k c Hin. assert (Hin' : In (k, c) items) by (eapply Permutation_in; [symmetry; exact Hp|exact Hin]).
      destruct (Hs k c Hin') as (e & ->). pose proof (Hf k _ Hin') as Hsh. simpl in Hsh.
      destruct (f k (CExpr e)) as [e'|]; [|contradiction]. exists e, e'; auto. }
    assert (Hsym : symbolic (map g d)).
    { intros k c Hin. apply in_map_iff in Hin as ([k0 c0] & He & Hin). unfold g in He; simpl in He. inv He.
      destruct (Hfd k c0 Hin) as (e & e' & _ & -> & _). eauto. }
    rewrite connectivity_ok by exact Hsym. cbn [bind].
    assert (Hconn : sym_conn ord (map g d) = sym_conn ord d).
    { unfold sym_conn. rewrite map_map. apply map_ext_in. intros [k c] Hin. unfold g; simpl.
      destruct (Hfd k c Hin) as (e & e' & -> & -> & Hm). f_equal.
      symmetry. unfold expr_deps. rewrite (seperate_symbols_mentions ord e e'); auto.
      intros s t Hs1 Ht1. apply Hn; right; exists k, e; (split; [eapply Permutation_in; [symmetry; exact Hp|exact Hin]|assumption]). }
    rewrite Hconn.
    destruct (classify_inv _ _ _ _ Hc) as (l0 & mid & top & Ht & _ & _ & E1 & E2 & E3 & E4 & E5 & E6).
    unfold classify. rewrite Ht. cbn [bind]. rewrite rev_app_distr. simpl. rewrite rev_involutive.
    assert (Hmem : forall s, dmem (map g d) s = dmem d s).
    { intros s. unfold dmem. unfold g. rewrite dget_mapv. destruct (dget d s); reflexivity. }
    assert (Hfilt : filter (fun s => negb (is_par s) && negb (dmem (map g d) s)) (sort_by sname (ord l0)) = m_indep m).
    { rewrite E1. apply filter_ext. intros s. rewrite Hmem. reflexivity. }
    rewrite Hfilt, <- E2, E5. cbn [bind]. rewrite <- E3, <- E4.
    replace (_ || _) with false.
    - eexists; split; [reflexivity|]. simpl. rewrite H1, H2. repeat split; auto.
    - symmetry. apply orb_false_iff. split; apply not_true_iff_false; intros He;
        apply existsb_exists in He as (s & Hs1 & Hs2); rewrite E6 in Hs2 by auto; discriminate.
  Qed.

  (** *** negation *)
  Definition neg_at (mulm1 : expr -> expr) (deps : list sym) (k : sym) (c : comp) : comp :=
    if inb k deps then match c with CExpr e => CExpr (mulm1 e) | _ => c end else c.

  Lemma neg_fold mulm1 (deps : list sym) : forall (d : dict sym comp), NoDup (dkeys d) -> NoDup deps -> symbolic d ->
    (forall s, In s deps -> In s (dkeys d)) ->
    foldM (fun d v => c <- dlook d v ;; c' <- neg_comp mulm1 c ;; Ok (dset d v c')) d deps =
    Ok (map (fun kc => (fst kc, neg_at mulm1 deps (fst kc) (snd kc))) d).
  Proof.
    induction deps as [|s deps IH]; intros d Hnd Hndp Hs Hin.
    - simpl. f_equal. rewrite map_ext with (g := fun x => x); [rewrite map_id; reflexivity|].
      intros [k c]; reflexivity.
    - inv Hndp. simpl. assert (Hk := Hin s (or_introl eq_refl)).
      apply in_map_iff in Hk as ([k c] & He & Hkc). simpl in He; subst k.
      unfold dlook. rewrite (In_dget d s c Hnd Hkc). cbn [of_opt bind].
      destruct (Hs s c Hkc) as (e & ->). cbn [neg_comp bind].
      assert (Hset : dset d s (CExpr (mulm1 e)) = map (fun kc => (fst kc, if eqb (fst kc) s then CExpr (mulm1 e) else snd kc)) d).
      { clear -Hnd Hkc. induction d as [|[k c] d IHd]; [contradiction|]. simpl. inv Hnd.
        destruct (eq_dec s k) as [->|Hne].
        - rewrite eqb_refl. f_equal. rewrite map_ext_in with (g := fun x => x); [rewrite map_id; reflexivity|].
          intros [k' c'] Hin. simpl. replace (eqb k' k) with false; [reflexivity|]. symmetry. apply eqb_false.
          intros ->. apply H1. change k with (fst (k, c')). apply in_map; exact Hin.
        - replace (eqb k s) with false by (symmetry; apply eqb_false; congruence).
          f_equal. apply IHd; [exact H2|]. destruct Hkc as [He|Hkc]; [inv He; congruence|exact Hkc]. }
      rewrite Hset. rewrite IH; auto.
      + f_equal. rewrite map_map. apply map_ext_in. intros [k c] Hkin. simpl. f_equal.
        unfold neg_at. unfold inb at 2. simpl. fold (inb k deps).
        destruct (eq_dec k s) as [->|Hne].
        * rewrite eqb_refl. simpl. replace (inb s deps) with false by (symmetry; apply inb_false; assumption).
          apply (In_dget d s c Hnd) in Hkin. apply (In_dget d s _ Hnd) in Hkc. rewrite Hkin in Hkc. inv Hkc. reflexivity.
        * replace (eqb k s) with false by (symmetry; apply eqb_false; exact Hne). reflexivity.
      + unfold dkeys. rewrite map_map. simpl. exact Hnd.
      + intros k c Hc. apply in_map_iff in Hc as ([k0 c0] & He & Hc). simpl in He. inv He.
        destruct (eqb k s); [eauto|]. apply (Hs k c0 Hc).
      + intros t Ht. unfold dkeys. rewrite map_map. simpl. apply Hin; right; exact Ht.
  Qed.

  Lemma neg_model_ok mulm1 ord1 ord2 (items : dict sym comp) (m : model) :
    set_order ord1 -> set_order ord2 -> is_dict items -> distinct_names items ->
    (forall e s, mentions (mulm1 e) s <-> mentions e s) ->
    init_model ord1 items = Ok m ->
    exists m', neg_model mulm1 ord2 m = Ok m' /\
      init_model ord2 (map (fun kc => (fst kc, neg_at mulm1 (m_dep m) (fst kc) (snd kc))) items) = Ok m' /\
      m_dict m' = map (fun kc => (fst kc, neg_at mulm1 (m_dep m) (fst kc) (snd kc))) (m_dict m) /\
      m_conn m' = m_conn m /\ m_indep m' = m_indep m /\ m_params m' = m_params m /\
      m_dep m' = m_dep m /\ m_inter m' = m_inter m /\ m_sig m' = m_sig m.
  Proof.
    intros Ho1 Ho2 Hd Hn Hm Hi.
    destruct (init_model_inv _ _ _ Hi) as (Hs & H1 & _ & _).
    assert (Hp := sort_items_perm items).
    assert (Hi2 : init_model ord2 items = Ok m).
    { rewrite <- Hi. symmetry. apply init_model_ord; auto. }
    assert (Hshape : forall k c, In (k, c) items -> same_shape c (neg_at mulm1 (m_dep m) k c)).
    { intros k c Hin. destruct (Hs k c Hin) as (e & ->). unfold neg_at. destruct (inb k (m_dep m)); simpl; intros s; [symmetry; apply Hm|reflexivity]. }
    destruct (init_model_map ord2 items m (neg_at mulm1 (m_dep m)) Ho2 Hn Hshape Hi2) as (m' & Hm' & Hrest).
    exists m'. split; [|split; [exact Hm'|exact Hrest]].
    unfold neg_model, neg_dict. rewrite H1.
    rewrite neg_fold.
    - cbn [bind]. rewrite <- Hm'. symmetry. apply init_model_ord; auto.
      + unfold is_dict, dkeys. rewrite map_map. exact Hd.
      + assert (Hsh : forall k c, In (k, c) items -> same_shape c (neg_at mulm1 (m_dep m) k c)) by exact Hshape.
        assert (Hsub : forall s, symbol_of (map (fun kc => (fst kc, neg_at mulm1 (m_dep m) (fst kc) (snd kc))) items) s -> symbol_of items s).
        { intros s [Hk|(k & e & Hin & Hme)].
          - left. unfold dkeys in *. rewrite map_map in Hk. exact Hk.
          - apply in_map_iff in Hin as ([k0 c0] & He & Hin). simpl in He. inv He. right. exists k.
            pose proof (Hsh k c0 Hin) as Hc. destruct (Hs k c0 Hin) as (e0 & ->). rewrite H2 in Hc. simpl in Hc.
            exists e0. split; [exact Hin|]. apply Hc; exact Hme. }
        intros s t Hs1 Ht1. apply Hn; auto.
      + apply Permutation_map; exact Hp.
    - eapply Permutation_NoDup; [apply Permutation_map; exact Hp|exact Hd].
    - apply (lists_nodup ord1 items m Ho1 Hd Hi).
    - eapply symbolic_perm; eauto.
    - intros s Hs1. apply (in_dep_sound ord1 items m Ho1 Hd Hi) in Hs1 as (Hk & _). apply (dkeys_perm _ _ Hp). exact Hk.
  Qed.

  (** The solution of the negated system. *)
  Lemma neg_solution mulm1 ord (items : dict sym comp) (m : model) inp val :
    set_order ord -> is_dict items -> no_self_reference items ->
    (forall e env, eval A env (mulm1 e) = a_mul A (eval A env e) (a_num A (-1))) ->
    init_model ord items = Ok m -> solution A items inp val ->
    solution A (map (fun kc => (fst kc, neg_at mulm1 (m_dep m) (fst kc) (snd kc))) items) inp
      (fun s => if inb s (m_dep m) then a_mul A (val s) (a_num A (-1)) else val s).
  Proof.
    intros Ho Hd Hself Hm Hi [H1 H2]. destruct (init_model_inv _ _ _ Hi) as (Hs & _).
    set (val' := fun s => if inb s (m_dep m) then a_mul A (val s) (a_num A (-1)) else val s).
    assert (Hev : forall k e, In (k, CExpr e) items -> eval A val' e = eval A val e).
    { intros k e Hin. apply eval_ext. intros s Hso. unfold val'.
      replace (inb s (m_dep m)) with false; [reflexivity|]. symmetry. apply inb_false. intros Hdep.
      apply (in_dep_sound ord items m Ho Hd Hi) in Hdep as (_ & _ & Hu).
      assert (Hr : refers items k s) by (exists e; split; [exact Hin|left; exact Hso]).
      rewrite (Hu k Hr) in Hr. exact (Hself s Hr). }
    split.
    - intros k e' Hin. apply in_map_iff in Hin as ([k0 c0] & He & Hin). simpl in He. inv He.
      destruct (Hs k c0 Hin) as (e & ->). unfold neg_at in H3. unfold val' at 1. destruct (inb k (m_dep m)).
      + inv H3. rewrite Hm, (Hev k e Hin), <- (H1 k e Hin). reflexivity.
      + inv H3. rewrite (Hev k e' Hin). apply H1; exact Hin.
    - intros s Hk. unfold dkeys in Hk. rewrite map_map in Hk. simpl in Hk. fold (dkeys items) in Hk. unfold val'.
      replace (inb s (m_dep m)) with false; [apply H2; exact Hk|]. symmetry. apply inb_false. intros Hdep.
      apply (in_dep_sound ord items m Ho Hd Hi) in Hdep as (Hk' & _). contradiction.
  Qed.
End InitFacts.
