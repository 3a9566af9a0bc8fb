(** * CallFacts: calling, classifying and comparing models. *)
From Verif Require Import PyBase PyFacts Toposort ToposortFacts Signature SignatureFacts Expr Model ModelSpec ModelFacts.
From Coq Require Import Relations.

Section CallFacts.
  Context {V : Type} (A : alg V).
  Notation model := (model (V:=V)).
  Notation comp := (comp (V:=V)).

  Lemma NoDup_named (inp : sym -> V) ss : NoDup (map sname ss) -> NoDup (dkeys (named inp ss)).
  Proof. intros Hnd. unfold named, dkeys. rewrite map_map. exact Hnd. Qed.
  Lemma dget_named (inp : sym -> V) ss s : NoDup (map sname ss) -> In s ss -> dget (named inp ss) (sname s) = Some (inp s).
  Proof.
    intros Hnd Hs. apply In_dget; [apply NoDup_named; exact Hnd|]. unfold named. apply in_map_iff. exists s; auto.
  Qed.
  Lemma dget_named_none (inp : sym -> V) ss n : ~ In n (map sname ss) -> dget (named inp ss) n = None.
  Proof. intros Hn. apply dget_None. unfold named, dkeys. rewrite map_map. exact Hn. Qed.
  Lemma named_combine (inp : sym -> V) ss : named inp ss = combine (map sname ss) (map inp ss).
  Proof. unfold named. induction ss as [|s ss IH]; simpl; [reflexivity|]. rewrite IH; reflexivity. Qed.

  Lemma map_snd_combine {X Y} (l : list X) (m : list Y) : List.length l = List.length m -> map snd (combine l m) = m.
  Proof.
    revert m; induction l as [|x l IH]; intros [|y m] Hl; simpl in *; try discriminate; [reflexivity|].
    rewrite IH by lia; reflexivity.
  Qed.
  Lemma firstn_combine' {X Y} k (l : list X) (m : list Y) : firstn k (combine l m) = combine (firstn k l) (firstn k m).
  Proof.
    revert l m; induction k as [|k IH]; intros l m; simpl; [reflexivity|]. destruct l, m; simpl; auto. rewrite IH; reflexivity.
  Qed.

  Lemma supplies_nodup (l : list (string * V)) args kw : NoDup (dkeys l) -> supplies l args kw -> NoDup (dkeys kw).
  Proof.
    intros Hnd (k & _ & Hp). eapply Permutation_NoDup; [symmetry; apply Permutation_map; exact Hp|].
    unfold dkeys in Hnd. rewrite <- (firstn_skipn k l), map_app in Hnd.
    induction (map fst (firstn k l)); [exact Hnd|]. simpl in Hnd; inv Hnd; auto.
  Qed.

  (** [bind] accepts exactly the argument lists that supply every name once. *)
  Lemma sig_bind_supplies names args kw b : NoDup names -> NoDup (dkeys kw) ->
    sig_bind (V:=V) (required names) args kw = Ok b <-> (dkeys b = names /\ supplies b args kw).
  Proof.
    intros Hnd Hkw. rewrite sig_bind_iff by assumption. split.
    - intros (vs & Hl & -> & Ha & Hp). split; [apply dkeys_combine; auto|].
      exists (List.length args). split; [|exact Hp].
      rewrite firstn_combine'. rewrite map_snd_combine; [exact Ha|].
      rewrite !firstn_length. lia.
    - intros (Hk & k & Ha & Hp). exists (map snd b).
      assert (Hb : b = combine names (map snd b)).
      { subst names. unfold dkeys. clear. induction b as [|[n v] b IH]; simpl; [reflexivity|]. rewrite <- IH; reflexivity. }
      assert (Hlen : List.length (map snd b) = List.length names).
      { subst names. unfold dkeys. rewrite !map_length. reflexivity. }
      repeat split; [exact Hlen|exact Hb| |].
      + rewrite Ha. rewrite <- firstn_map. rewrite firstn_length.
        destruct (Nat.le_gt_cases k (List.length (map snd b))).
        * rewrite Nat.min_l by lia. reflexivity.
        * rewrite Nat.min_r by lia. rewrite !firstn_all2 by lia. reflexivity.
      + rewrite <- Hb. rewrite Ha, map_length, firstn_length.
        destruct (Nat.le_gt_cases k (List.length b)).
        * rewrite Nat.min_l by lia. exact Hp.
        * rewrite Nat.min_r by lia. rewrite skipn_all2 in Hp by lia. rewrite skipn_all2 by lia. exact Hp.
  Qed.

  Lemma call_gen ord (m : model) val inp sup args kw syms :
    set_order ord -> well_formed m -> solves_m A m val -> ordered_symbols ord m = Ok syms ->
    m_sig m = required (map sname sup) -> NoDup (map sname sup) ->
    (forall s, node (m_conn m) s -> ~ In s (dkeys (m_dict m)) -> In s sup) ->
    (forall s, In s (dkeys (m_dict m)) -> ~ In (sname s) (map sname sup)) ->
    (forall s, In s sup -> val s = inp s) ->
    supplies (named inp sup) args kw ->
    call A ord m args kw = Ok {| mo_vars := dkeys (m_dict m); mo_out := map val (dkeys (m_dict m)) |}.
  Proof.
    intros Ho Hwf Hsol Hsyms Hsig Hnd Hcov Hkey Hval Hsup.
    unfold call, eval_components. rewrite Hsig.
    assert (Hb : sig_bind (required (map sname sup)) args kw = Ok (named inp sup)).
    { apply sig_bind_supplies; [exact Hnd|eapply supplies_nodup; [apply NoDup_named; exact Hnd|exact Hsup]|].
      split; [|exact Hsup]. unfold named, dkeys. rewrite map_map. reflexivity. }
    rewrite Hb. cbn [bind].
    rewrite (eval_bound_ok A ord m val (named inp sup) syms); auto.
    - intros s Hs Hk. rewrite dget_named; [rewrite Hval; auto|exact Hnd|auto].
    - intros s Hs. apply dget_named_none. auto.
  Qed.

  (** *** classification *)
  Lemma make_signature_ok indep params sig : make_signature indep params = Ok sig ->
    sig = required (map sname (indep ++ params)) /\ NoDup (map sname (indep ++ params)).
  Proof.
    unfold make_signature. rewrite <- (map_map sname pos_param). fold (required (map sname (indep ++ params))).
    rewrite mk_signature_required. destruct (nodupb _) eqn:Hn; [|discriminate].
    intros Hq; inv Hq. split; [reflexivity|]. apply nodupb_iff; exact Hn.
  Qed.
  Lemma make_signature_intro indep params : NoDup (map sname (indep ++ params)) ->
    make_signature indep params = Ok (required (map sname (indep ++ params))).
  Proof.
    intros Hn. unfold make_signature. rewrite <- (map_map sname pos_param). fold (required (map sname (indep ++ params))).
    rewrite mk_signature_required. apply nodupb_iff in Hn. rewrite Hn. reflexivity.
  Qed.

  Lemma in_last_mid {B} (l0 : list B) mid top i L :
    nth_error (l0 :: mid ++ [top]) i = Some L -> i = 0 /\ L = l0 \/ In L mid \/ L = top.
  Proof.
    destruct i as [|i]; simpl; intros Hn; [inv Hn; auto|]. right. apply nth_error_In in Hn.
    apply in_app_iff in Hn as [Hn|[Hn|[]]]; auto.
  Qed.

  Section Init.
    Context (ord : list sym -> list sym) (items : dict sym comp) (m : model).
    Context (Ho : set_order ord) (Hd : is_dict items) (Hi : init_model ord items = Ok m).

    Lemma conn_nodup : NoDup (dkeys (m_conn m)).
    Proof using Hi Hd.
      destruct (init_model_inv _ _ _ Hi) as (_ & _ & -> & _). rewrite dkeys_sym_conn.
      eapply Permutation_NoDup; [apply Permutation_map, sort_items_perm|exact Hd].
    Qed.
    Lemma node_items s : node (m_conn m) s <-> symbol_of items s.
    Proof using Hi Ho.
      destruct (init_model_inv _ _ _ Hi) as (_ & _ & -> & _). rewrite node_sym_conn by exact Ho.
      symmetry. apply symbol_of_perm, sort_items_perm.
    Qed.
    Lemma edge_items s t : dep_edge (m_conn m) s t <-> refers items s t.
    Proof using Hi Ho.
      destruct (init_model_inv _ _ _ Hi) as (_ & _ & -> & _). rewrite dep_edge_sym_conn by exact Ho.
      symmetry. apply refers_perm, sort_items_perm.
    Qed.
    Lemma keys_items s : In s (dkeys (m_dict m)) <-> In s (dkeys items).
    Proof using Hi.
      destruct (init_model_inv _ _ _ Hi) as (_ & -> & _). symmetry. apply dkeys_perm, sort_items_perm.
    Qed.

    (** the layers, in terms of the model dict *)
    Lemma layers_of_init : exists l0 mid top,
      toposort (m_conn m) = Ok (l0 :: mid ++ [top]) /\
      (forall s, In s (m_indep m) <-> In s l0 /\ is_par s = false /\ ~ In s (dkeys items)) /\
      (forall s, In s (m_params m) <-> In s l0 /\ is_par s = true) /\
      (forall s, In s (m_dep m) <-> In s top) /\
      (forall s, In s (m_inter m) <-> In s (concat mid)).
    Proof using Hi Ho.
      destruct (init_model_inv _ _ _ Hi) as (Hs & H1 & H2 & Hc).
      destruct (classify_inv _ _ _ _ Hc) as (l0 & mid & top & Ht & _ & _ & E1 & E2 & E3 & E4 & _).
      exists l0, mid, top. rewrite H2, E1, E2, E3, E4. split; [exact Ht|]. split; [|split; [|split]]; intros s.
      - rewrite filter_In, in_sort_by, in_ord by exact Ho. rewrite andb_true_iff, !negb_true_iff, dmem_false.
        rewrite <- (dkeys_perm _ _ (sort_items_perm items)). tauto.
      - rewrite filter_In, in_sort_by, in_ord by exact Ho. tauto.
      - rewrite in_sort_by, in_ord by exact Ho. tauto.
      - rewrite in_sort_by. apply in_perm_iff. apply flat_map_perm. exact Ho.
    Qed.

    Lemma layer0_items l0 rest : toposort (m_conn m) = Ok (l0 :: rest) ->
      forall s, In s l0 <-> symbol_of items s /\ forall t, refers items s t -> t = s.
    Proof using Hi Ho Hd.
      intros Ht s. rewrite (toposort_layer0 _ _ _ conn_nodup Ht), node_items. split.
      - intros [Hn He]. split; [exact Hn|]. intros t Ht'. destruct (eq_dec t s) as [->|Hne]; [reflexivity|].
        exfalso. apply (He t). split; [apply edge_items; exact Ht'|exact Hne].
      - intros [Hn He]. split; [exact Hn|]. intros t [Ht' Hne]. apply Hne, He, edge_items; exact Ht'.
    Qed.

    Lemma in_indep_iff s : In s (m_indep m) <-> symbol_of items s /\ is_par s = false /\ ~ In s (dkeys items).
    Proof using Hi Ho Hd.
      destruct layers_of_init as (l0 & mid & top & Ht & H1 & _). rewrite H1, (layer0_items _ _ Ht). split.
      - tauto.
      - intros (Hs & Hp & Hk). repeat split; auto. intros t (e & Hin & _). exfalso. apply Hk.
        change s with (fst (s, CExpr (V:=V) e)). apply in_map; exact Hin.
    Qed.
    Lemma in_params_iff s : In s (m_params m) <->
      symbol_of items s /\ is_par s = true /\ (forall t, refers items s t -> t = s).
    Proof using Hi Ho Hd.
      destruct layers_of_init as (l0 & mid & top & Ht & _ & H1 & _). rewrite H1, (layer0_items _ _ Ht). tauto.
    Qed.

    Lemma upper_layer l0 mid top L s : toposort (m_conn m) = Ok (l0 :: mid ++ [top]) ->
      In L (mid ++ [top]) -> In s L -> In s (dkeys items) /\ exists t, refers items s t /\ t <> s.
    Proof using Hi Ho Hd.
      intros Ht HL Hs. pose proof (toposort_ok _ _ conn_nodup Ht) as (Hnd & Hnode & _ & _).
      assert (Hn0 : ~ In s l0).
      { intros Hs0. assert (Hc : In s (concat (mid ++ [top]))) by (apply in_concat; eauto). simpl in Hnd.
        clear -Hnd Hs0 Hc. induction l0 as [|x l IH]; [contradiction|]. simpl in Hnd; inv Hnd.
        destruct Hs0 as [->|Hs0]; [apply H1, in_or_app; auto|auto]. }
      assert (Hsym : symbol_of items s).
      { apply node_items, Hnode. simpl. apply in_or_app; right. apply in_concat; eauto. }
      assert (Hex : exists t, refers items s t /\ t <> s).
      { destruct (toposort (m_conn m)) as [ls|] eqn:Ht'; [|discriminate]. 
        assert (Hdec : forall t, dep_edge (m_conn m) s t -> t = s \/ t <> s) by (intros; destruct (eq_dec t s); auto).
        destruct (dget (m_conn m) s) as [deps|] eqn:Hg.
        - destruct (existsb (fun t => negb (eqb t s)) deps) eqn:He.
          + apply existsb_exists in He as (t & Hin & Hne). apply negb_true_iff, eqb_false in Hne.
            exists t; split; [|exact Hne]. apply edge_items. exists deps; split; [apply dget_In; exact Hg|exact Hin].
          + exfalso. apply Hn0. rewrite <- Ht' in Ht. apply (layer0_items _ _ Ht). split; [exact Hsym|].
            intros t Hr. apply edge_items in Hr as (ds & Hin & Hy).
            assert (dget (m_conn m) s = Some ds) by (apply In_dget; [apply conn_nodup|exact Hin]).
            rewrite Hg in H. inv H. destruct (eq_dec t s) as [|Hne]; [assumption|].
            assert (existsb (fun t => negb (eqb t s)) ds = true); [|congruence].
            apply existsb_exists. exists t; split; [exact Hy|]. apply negb_true_iff, eqb_false; exact Hne.
        - exfalso. apply Hn0. rewrite <- Ht' in Ht. apply (layer0_items _ _ Ht). split; [exact Hsym|].
          intros t Hr. apply edge_items in Hr as (ds & Hin & Hy). exfalso.
          apply dget_None in Hg. apply Hg. change s with (fst (s, ds)). apply in_map; exact Hin. }
      split; [|exact Hex]. destruct Hex as (t & (e & Hin & _) & _).
      change s with (fst (s, CExpr (V:=V) e)). apply in_map; exact Hin.
    Qed.

    Lemma in_dep_sound s : In s (m_dep m) ->
      In s (dkeys items) /\ (exists t, refers items s t /\ t <> s) /\ (forall k, refers items k s -> k = s).
    Proof using Hi Ho Hd.
      destruct layers_of_init as (l0 & mid & top & Ht & _ & _ & H1 & _). rewrite H1. intros Hs.
      assert (HL : In top (mid ++ [top])) by (apply in_or_app; right; left; reflexivity).
      destruct (upper_layer _ _ _ _ _ Ht HL Hs) as [Hk Hex]. repeat split; auto.
      intros k Hr. destruct (eq_dec k s) as [|Hne]; [assumption|]. exfalso.
      pose proof (toposort_ok _ _ conn_nodup Ht) as (Hnd & Hnode & Hlay & _).
      apply edge_items in Hr.
      assert (Hkn : In k (concat (l0 :: mid ++ [top]))).
      { apply Hnode. left. destruct Hr as (ds & Hin & _). change k with (fst (k, ds)). apply in_map; exact Hin. }
      apply in_concat in Hkn as (L & HLin & HkL). apply In_nth_error in HLin as (i & Hi').
      destruct (Hlay i L k s Hi' HkL) as (j & L' & Hj & HL' & HsL'). { split; [exact Hr|congruence]. }
      (* s is in the last layer only *)
      assert (Hlast : nth_error (l0 :: mid ++ [top]) (S (List.length mid)) = Some top).
      { simpl. rewrite nth_error_app2 by lia. rewrite Nat.sub_diag. reflexivity. }
      assert (Hil : i < List.length (l0 :: mid ++ [top])) by (apply nth_error_Some; congruence).
      simpl in Hil. rewrite app_length in Hil. simpl in Hil.
      assert (Hjl : j < S (List.length mid)) by lia.
      (* distinct layers are disjoint *)
      assert (Hsplit : exists a b, l0 :: mid ++ [top] = a ++ L' :: b ++ [top]).
      { apply nth_error_split in HL' as (a & b & Hab & Hla). exists a.
        assert (Hb : b <> []).
        { intros ->. assert (List.length (l0 :: mid ++ [top]) = S j) by (rewrite Hab, app_length; simpl; lia).
          simpl in H. rewrite app_length in H. simpl in H. lia. }
        destruct (exists_last Hb) as (b' & z & ->). exists b'.
        assert (Hz : z = top).
        { assert (Hl2 : last (l0 :: mid ++ [top]) l0 = top) by (change (l0 :: mid ++ [top]) with ((l0 :: mid) ++ [top]); apply last_last).
          rewrite Hab in Hl2. change (a ++ L' :: b' ++ [z]) with (a ++ (L' :: b') ++ [z]) in Hl2.
          rewrite app_assoc, last_last in Hl2. exact Hl2. }
        rewrite Hab, Hz. reflexivity. }
      destruct Hsplit as (a & b & Hab). rewrite Hab in Hnd.
      rewrite concat_app in Hnd. simpl in Hnd. rewrite concat_app in Hnd. simpl in Hnd. rewrite app_nil_r in Hnd.
      assert (Hnd2 : NoDup (L' ++ concat b ++ top)).
      { clear -Hnd. induction (concat a); [exact Hnd|]. simpl in Hnd; inv Hnd; auto. }
      clear -Hnd2 HsL' Hs. induction L' as [|x L' IH]; [contradiction|]. simpl in Hnd2; inv Hnd2.
      destruct HsL' as [->|HsL']; [apply H1, in_or_app; right; apply in_or_app; auto|auto].
    Qed.

    Lemma in_inter_sound s : In s (m_inter m) -> In s (dkeys items) /\ exists t, refers items s t /\ t <> s.
    Proof using Hi Ho Hd.
      destruct layers_of_init as (l0 & mid & top & Ht & _ & _ & _ & H1). rewrite H1. intros Hs.
      apply in_concat in Hs as (L & HL & Hs). apply (upper_layer _ _ _ L s Ht); auto. apply in_or_app; auto.
    Qed.

    (** every component that refers to something else is dependent or interdependent *)
    Lemma dep_or_inter s t : refers items s t -> t <> s -> In s (m_dep m) \/ In s (m_inter m).
    Proof using Hi Ho Hd.
      intros Hr Hne. destruct layers_of_init as (l0 & mid & top & Ht & _ & _ & H1 & H2).
      pose proof (toposort_ok _ _ conn_nodup Ht) as (Hnd & Hnode & _ & _).
      assert (Hin : In s (concat (l0 :: mid ++ [top]))).
      { apply Hnode, node_items. left. destruct Hr as (e & Hin & _). change s with (fst (s, CExpr (V:=V) e)). apply in_map; exact Hin. }
      simpl in Hin. rewrite concat_app in Hin. simpl in Hin. rewrite app_nil_r in Hin.
      rewrite !in_app_iff in Hin. rewrite H1, H2. destruct Hin as [Hin|[Hin|Hin]]; auto.
      exfalso. apply (layer0_items _ _ Ht) in Hin as [_ Hin]. apply Hne, Hin; exact Hr.
    Qed.

    Lemma lists_sorted : alphabetical sname (m_indep m) /\ alphabetical sname (m_params m) /\
      alphabetical sname (m_dep m) /\ alphabetical sname (m_inter m) /\ alphabetical sname (dkeys (m_dict m)).
    Proof using Hi.
      destruct (init_model_inv _ _ _ Hi) as (Hs & H1 & H2 & Hc).
      destruct (classify_inv _ _ _ _ Hc) as (l0 & mid & top & Ht & _ & _ & E1 & E2 & E3 & E4 & _).
      assert (Hfilt : forall (f : sym -> bool) l, alphabetical sname l -> alphabetical sname (filter f l)).
      { intros f l. unfold alphabetical. induction 1 as [|x l Hl IH Hx]; simpl; [constructor|].
        destruct (f x); [|exact IH]. constructor; [exact IH|]. rewrite Forall_forall in *.
        intros y Hy. apply filter_In in Hy as [Hy _]. auto. }
      rewrite E1, E2, E3, E4, H1, dkeys_sort_items.
      repeat split; try apply Hfilt; apply sort_by_sorted.
    Qed.

    Lemma lists_nodup : NoDup (m_indep m) /\ NoDup (m_params m) /\ NoDup (m_dep m) /\ NoDup (m_inter m) /\
      (forall s, In s (m_dep m) -> ~ In s (m_inter m)).
    Proof using Hi Hd Ho.
      destruct (init_model_inv _ _ _ Hi) as (Hs & H1 & H2 & Hc).
      destruct (classify_inv _ _ _ _ Hc) as (l0 & mid & top & Ht & _ & _ & E1 & E2 & E3 & E4 & _).
      rewrite <- H2 in Ht. pose proof (toposort_ok _ _ conn_nodup Ht) as (Hnd & _).
      simpl in Hnd. rewrite concat_app in Hnd. simpl in Hnd. rewrite app_nil_r in Hnd.
      assert (Hsplit : forall (a b : list sym), NoDup (a ++ b) -> NoDup a /\ NoDup b /\ forall x, In x a -> ~ In x b).
      { clear. intros a b. induction a as [|x a IH]; simpl; intros Hn; [repeat split; auto; constructor|].
        inv Hn. destruct (IH H2) as (I1 & I2 & I3). repeat split; auto.
        - constructor; [|exact I1]. intros Hx; apply H1, in_or_app; auto.
        - intros y [<-|Hy]; auto. intros Hx; apply H1, in_or_app; auto. }
      destruct (Hsplit _ _ Hnd) as (N0 & N1 & _). destruct (Hsplit _ _ N1) as (N2 & N3 & D).
      assert (Hp : forall l, NoDup l -> NoDup (sort_by sname (ord l))).
      { intros l Hl. apply NoDup_sort_by. eapply Permutation_NoDup; [symmetry; apply Ho|exact Hl]. }
      rewrite E1, E2, E3, E4. repeat split.
      - apply NoDup_filter, Hp; exact N0.
      - apply NoDup_filter, Hp; exact N0.
      - apply Hp; exact N3.
      - apply NoDup_sort_by. eapply Permutation_NoDup; [symmetry; apply flat_map_perm; exact Ho|exact N2].
      - intros s Hs1 Hs2. rewrite in_sort_by, in_ord in Hs1 by exact Ho. rewrite in_sort_by in Hs2.
        apply (in_perm_iff _ _ s (flat_map_perm ord mid Ho)) in Hs2. exact (D s Hs2 Hs1).
    Qed.
  End Init.

  (** *** the call theorem for symbolic models *)
  Lemma call_symbolic ord1 ord2 (items : dict sym comp) (m : model) inp val args kw :
    set_order ord1 -> set_order ord2 -> is_dict items -> distinct_names items -> no_self_reference items ->
    (forall k, In k (dkeys items) -> is_par k = false) ->
    init_model ord1 items = Ok m -> solution A items inp val ->
    supplies (named inp (m_indep m ++ m_params m)) args kw ->
    call A ord2 m args kw = Ok {| mo_vars := sort_by sname (dkeys items); mo_out := map val (sort_by sname (dkeys items)) |}.
  Proof.
    intros Ho1 Ho2 Hd Hn Hself Hpar Hi Hsol Hsup.
    destruct (init_model_inv _ _ _ Hi) as (Hs & H1 & H2 & Hc).
    destruct (classify_inv _ _ _ _ Hc) as (l0 & mid & top & Ht & _ & _ & _ & _ & _ & _ & Hsig & _).
    apply make_signature_ok in Hsig as [Hsig Hndn].
    rewrite <- H2 in Ht. destruct (toposort_ordered ord2 m _ Ht) as (syms & Hsyms).
    rewrite <- dkeys_sort_items, <- H1.
    apply (call_gen ord2 m val inp (m_indep m ++ m_params m) args kw syms); auto.
    - exact (well_formed_sym ord1 items m Ho1 Hd Hn Hself H1 H2).
    - exact (solves_sym A ord1 items m inp val Ho1 Hd Hn Hself Hs H1 H2 Hsol).
    - intros s Hs1 Hk. rewrite (keys_items ord1 items m Hi) in Hk. apply (node_items ord1 items m Ho1 Hi) in Hs1.
      apply in_or_app. destruct (is_par s) eqn:Hp.
      + right. apply (in_params_iff ord1 items m Ho1 Hd Hi). repeat split; auto.
        intros t (e & Hin & _). exfalso. apply Hk. change s with (fst (s, CExpr (V:=V) e)). apply in_map; exact Hin.
      + left. apply (in_indep_iff ord1 items m Ho1 Hd Hi). auto.
    - intros s Hk Hin. rewrite (keys_items ord1 items m Hi) in Hk. apply in_map_iff in Hin as (t & He & Ht').
      assert (Hsym : symbol_of items t).
      { apply in_app_iff in Ht' as [Ht'|Ht'];
          [apply (in_indep_iff ord1 items m Ho1 Hd Hi) in Ht'|apply (in_params_iff ord1 items m Ho1 Hd Hi) in Ht']; tauto. }
      assert (t = s) by (apply Hn; auto; left; exact Hk). subst t.
      apply in_app_iff in Ht' as [Ht'|Ht'].
      + apply (in_indep_iff ord1 items m Ho1 Hd Hi) in Ht'. tauto.
      + apply (in_params_iff ord1 items m Ho1 Hd Hi) in Ht' as (_ & Hp & _). rewrite (Hpar s Hk) in Hp; discriminate.
    - destruct Hsol as [_ Hsol2]. intros s Hs'. apply Hsol2.
      apply in_app_iff in Hs' as [Hs'|Hs'].
      + apply (in_indep_iff ord1 items m Ho1 Hd Hi) in Hs'. tauto.
      + apply (in_params_iff ord1 items m Ho1 Hd Hi) in Hs' as (_ & Hp & _). intros Hk. rewrite (Hpar s Hk) in Hp; discriminate.
  Qed.

  (** arguments that do not supply every name exactly once are rejected *)
  Lemma call_rejects ord (items : dict sym comp) (m : model) ord2 args kw : init_model ord items = Ok m ->
    NoDup (dkeys kw) ->
    (exists b, dkeys b = map sname (m_indep m ++ m_params m) /\ supplies b args kw) \/
    call A ord2 m args kw = Raise TypeError.
  Proof.
    intros Hi Hkw. destruct (init_model_inv _ _ _ Hi) as (Hs & H1 & H2 & Hc).
    destruct (classify_inv _ _ _ _ Hc) as (l0 & mid & top & _ & _ & _ & _ & _ & _ & _ & Hsig & _).
    apply make_signature_ok in Hsig as [Hsig Hndn].
    unfold call, eval_components. rewrite Hsig.
    destruct (sig_bind_total (map sname (m_indep m ++ m_params m)) args kw) as [(b & Hb)|He].
    - left. exists b. apply sig_bind_supplies; assumption.
    - right. rewrite He. reflexivity.
  Qed.

  (** *** independence of set order and of the order the dict was written in *)
  Lemma init_model_ord ord1 ord2 (items items' : dict sym comp) :
    set_order ord1 -> set_order ord2 -> is_dict items -> distinct_names items -> Permutation items items' ->
    init_model ord1 items = init_model ord2 items'.
  Proof.
    intros Ho1 Ho2 Hd Hn Hp. unfold init_model.
    assert (Hsort : sort_items items = sort_items items').
    { unfold sort_items. apply sort_by_perm_eq; [|exact Hp].
      intros [k c] [k' c'] Hx Hy He. simpl in He.
      assert (k = k').
      { apply Hn; [left; change k with (fst (k, c)); apply in_map; exact Hx|left; change k' with (fst (k', c')); apply in_map; exact Hy|exact He]. }
      subst k'. f_equal. apply (In_dget items k c Hd) in Hx. apply (In_dget items k c' Hd) in Hy. congruence. }
    rewrite <- Hsort. set (d := sort_items items).
    assert (Hnd : distinct_names d).
    { intros s t Hs Ht. apply Hn; eapply (symbol_of_perm _ _ (sort_items_perm items)); assumption. }
    assert (Hdd : is_dict d) by (eapply Permutation_NoDup; [apply Permutation_map, sort_items_perm|exact Hd]).
    assert (Hconn : connectivity ord1 d = connectivity ord2 d).
    { unfold connectivity.
      assert (Hall : forall kc, In kc d ->
        match snd kc with CExpr e => Ok (fst kc, expr_deps ord1 e) | CFun _ _ => Raise AttributeError end =
        match snd kc with CExpr e => Ok (fst kc, expr_deps ord2 e) | CFun _ _ => Raise AttributeError end).
      { intros [k c] Hin. simpl. destruct c as [e|]; [|reflexivity]. f_equal. f_equal.
        apply expr_deps_ord; auto. intros s t Hs Ht. apply Hnd; right; exists k, e; auto. }
      clear -Hall. induction d as [|x d' IH]; simpl; [reflexivity|].
      rewrite (Hall x) by (left; reflexivity). rewrite IH by (intros; apply Hall; right; assumption). reflexivity. }
    rewrite Hconn. destruct (connectivity ord2 d) as [conn|e] eqn:Hc; [|reflexivity]. cbn [bind].
    pose proof (connectivity_symbolic _ _ _ Hc) as Hs. rewrite connectivity_ok in Hc by exact Hs. inv Hc.
    unfold classify. destruct (toposort _) as [layers|e] eqn:Ht; [|reflexivity]. cbn [bind].
    destruct layers as [|l0 rest]; [reflexivity|]. destruct (rev rest) as [|top mid] eqn:Hr; [reflexivity|].
    assert (Hndc : NoDup (dkeys (sym_conn ord2 d))) by (rewrite dkeys_sym_conn; exact Hdd).
    pose proof (toposort_ok _ _ Hndc Ht) as (_ & Hnode & _).
    assert (Hrest : rest = rev mid ++ [top]) by (rewrite <- (rev_involutive rest), Hr; reflexivity).
    assert (Hinj : forall l, incl l (concat (l0 :: rest)) -> key_inj sname l).
    { intros l Hl s t Hs1 Ht1. apply Hnd; apply (node_sym_conn ord2 d); auto; apply Hnode, Hl; assumption. }
    assert (Hsame : forall l l', incl l (concat (l0 :: rest)) -> Permutation l l' -> sort_by sname l = sort_by sname l').
    { intros l l' Hl Hpl. apply sort_by_perm_eq; [apply Hinj; exact Hl|exact Hpl]. }
    assert (E0 : sort_by sname (ord1 l0) = sort_by sname (ord2 l0)).
    { apply Hsame; [|etransitivity; [apply Ho1|symmetry; apply Ho2]].
      intros s Hs1. apply in_ord in Hs1; [|exact Ho1]. simpl. apply in_or_app; auto. }
    assert (E1 : sort_by sname (ord1 top) = sort_by sname (ord2 top)).
    { apply Hsame; [|etransitivity; [apply Ho1|symmetry; apply Ho2]].
      intros s Hs1. apply in_ord in Hs1; [|exact Ho1]. simpl. apply in_or_app; right. rewrite Hrest, concat_app.
      apply in_or_app; right. simpl. rewrite app_nil_r. exact Hs1. }
    assert (E2 : sort_by sname (flat_map ord1 (rev mid)) = sort_by sname (flat_map ord2 (rev mid))).
    { apply Hsame.
      - intros s Hs1. apply (in_perm_iff _ _ s (flat_map_perm ord1 (rev mid) Ho1)) in Hs1.
        simpl. apply in_or_app; right. rewrite Hrest, concat_app. apply in_or_app; auto.
      - etransitivity; [apply flat_map_perm; exact Ho1|symmetry; apply flat_map_perm; exact Ho2]. }
    rewrite E0, E1, E2. reflexivity.
  Qed.
End CallFacts.
