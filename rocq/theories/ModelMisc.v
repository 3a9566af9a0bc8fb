(** * ModelMisc: ModelOutput, model equality, shared parameters. *)
From Verif Require Import PyBase PyFacts Toposort ToposortFacts LayerFacts Signature SignatureFacts Expr Model ModelSpec ModelFacts CallFacts InitFacts ConstraintFacts.

Section ModelMisc.
  Context {V : Type}.
  Notation model := (model (V:=V)).
  Notation comp := (comp (V:=V)).

  (** *** ModelOutput *)
  Lemma mo_dict_nodup {W} (o : model_output W) : NoDup (mo_vars o) -> length (mo_vars o) = length (mo_out o) ->
    mo_dict o = combine (mo_vars o) (mo_out o).
  Proof.
    intros Hnd Hl. unfold mo_dict. apply dict_of_nodup. fold (dkeys (combine (mo_vars o) (mo_out o))).
    rewrite dkeys_combine by exact Hl. exact Hnd.
  Qed.
  Lemma mo_names_nodup {W} (o : model_output W) : NoDup (map sname (mo_vars o)) ->
    mo_names o = map (fun v => (sname v, v)) (mo_vars o).
  Proof. intros Hnd. unfold mo_names. apply dict_of_nodup. rewrite map_map. exact Hnd. Qed.

  Lemma model_output_access {W} (o : model_output W) i v x :
    NoDup (map sname (mo_vars o)) -> length (mo_vars o) = length (mo_out o) ->
    nth_error (mo_vars o) i = Some v -> nth_error (mo_out o) i = Some x ->
    mo_index o i = Ok x /\ mo_attr o (sname v) = Ok x /\ dget (mo_dict o) v = Some x.
  Proof.
    intros Hnd Hl Hv Hx.
    assert (Hnv : NoDup (mo_vars o)) by (eapply NoDup_map_inv; exact Hnd).
    assert (Hd : dget (mo_dict o) v = Some x).
    { rewrite mo_dict_nodup by assumption. eapply dget_combine_nth; eauto. }
    split; [unfold mo_index; rewrite Hx; reflexivity|]. split; [|exact Hd].
    unfold mo_attr. rewrite mo_names_nodup by exact Hnd.
    assert (Hn : dget (map (fun v => (sname v, v)) (mo_vars o)) (sname v) = Some v).
    { apply In_dget; [unfold dkeys; rewrite map_map; exact Hnd|]. apply in_map_iff. exists v; split; [reflexivity|eapply nth_error_In; exact Hv]. }
    rewrite Hn. unfold dlook. rewrite Hd. reflexivity.
  Qed.
  Lemma model_output_missing {W} (o : model_output W) n :
    ~ In n (map sname (mo_vars o)) -> mo_attr o n = Raise AttributeError.
  Proof.
    intros Hn. unfold mo_attr. replace (dget (mo_names o) n) with (@None sym); [reflexivity|]. symmetry.
    apply dget_None. unfold mo_names, dict_of. intros Hk. apply dget_keys in Hk. rewrite dget_dupdate in Hk. simpl in Hk.
    destruct (dget (rev _) n) eqn:Hg; [|congruence]. apply dget_In in Hg. apply in_rev in Hg.
    apply in_map_iff in Hg as (v & He & Hv). inv He. apply Hn, in_map; exact Hv.
  Qed.
  Lemma model_output_index_oob {W} (o : model_output W) i : length (mo_out o) <= i -> mo_index o i = Raise IndexError.
  Proof. intros Hi. unfold mo_index. apply nth_error_None in Hi. rewrite Hi. reflexivity. Qed.
  Lemma model_output_pickle {W} (o : model_output W) : mo_setstate (mo_getstate o) = o.
  Proof. destruct o; reflexivity. Qed.

  (** *** equality *)
  Definition same_system (expand : expr -> expr) (i1 i2 : dict sym comp) : Prop :=
    (forall k, In k (dkeys i1) <-> In k (dkeys i2)) /\
    (forall k e1 e2, In (k, CExpr e1) i1 -> In (k, CExpr e2) i2 -> expand e1 = expand e2).

  Lemma eq_items_ok expand : forall d1 d2 : dict sym comp, symbolic d1 -> symbolic d2 -> length d1 = length d2 ->
    exists b, eq_items expand d1 d2 = Ok b /\
      (b = true <-> Forall2 (fun x y => fst x = fst y /\ exists e1 e2, snd x = CExpr e1 /\ snd y = CExpr e2 /\ expand e1 = expand e2) d1 d2).
  Proof.
    induction d1 as [|[k1 c1] d1 IH]; intros [|[k2 c2] d2] S1 S2 Hl; simpl in Hl; try discriminate.
    - exists true. split; [reflexivity|]. split; [constructor|reflexivity].
    - destruct (S1 k1 c1) as (e1 & ->); [left; reflexivity|]. destruct (S2 k2 c2) as (e2 & ->); [left; reflexivity|].
      simpl. destruct (eqb k1 k2) eqn:Hk.
      + apply (proj1 (eqb_true _ _)) in Hk. subst k2. destruct (eqb (expand e1) (expand e2)) eqn:He.
        * apply (proj1 (eqb_true _ _)) in He. destruct (IH d2) as (b & Hb & Hiff).
          -- intros k c Hin; apply (S1 k c); right; exact Hin.
          -- intros k c Hin; apply (S2 k c); right; exact Hin.
          -- lia.
          -- exists b. split; [exact Hb|]. rewrite Hiff. split.
             ++ intros Hf. constructor; [|exact Hf]. simpl. split; [reflexivity|]. exists e1, e2; auto.
             ++ intros Hf. inversion Hf; assumption.
        * exists false. split; [reflexivity|]. split; [discriminate|]. intros Hf. inversion Hf as [|x y l l' (_ & a & b & Ha & Hb & Hab) _]; subst.
          simpl in *. inv Ha; inv Hb. apply (proj1 (eqb_false _ _)) in He. congruence.
      + exists false. split; [reflexivity|]. split; [discriminate|]. intros Hf. inversion Hf as [|x y l l' (Hkk & _) _]; subst.
        simpl in Hkk. apply (proj1 (eqb_false _ _)) in Hk. congruence.
  Qed.

  Lemma Forall2_keys {X} (P : X -> X -> Prop) (d1 d2 : dict sym X) :
    Forall2 (fun x y => fst x = fst y /\ P (snd x) (snd y)) d1 d2 -> dkeys d1 = dkeys d2.
  Proof. induction 1 as [|x y l l' [Hk _] _ IH]; simpl; [reflexivity|]. rewrite Hk, IH. reflexivity. Qed.

  Lemma Forall2_of_keys {X} (P : X -> X -> Prop) : forall d1 d2 : dict sym X, dkeys d1 = dkeys d2 -> NoDup (dkeys d1) ->
    (forall k x y, In (k, x) d1 -> In (k, y) d2 -> P x y) ->
    Forall2 (fun x y => fst x = fst y /\ P (snd x) (snd y)) d1 d2.
  Proof.
    induction d1 as [|[k x] d1 IH]; intros [|[k' y] d2] Hk Hnd HP; simpl in Hk; try discriminate; [constructor|].
    inversion Hk as [[Hkk Hkr]]; subst k'. simpl in Hnd. inversion Hnd as [|? ? Hn1 Hn2]; subst.
    constructor; [simpl; split; [reflexivity|apply (HP k); left; reflexivity]|].
    apply IH; [exact Hkr|exact Hn2|]. intros k2 x2 y2 H1 H2. apply (HP k2); right; assumption.
  Qed.

  Lemma model_eq_small expand ord1 ord2 (i1 i2 : dict sym comp) (m1 m2 : model) :
    is_dict i1 -> is_dict i2 -> distinct_names i1 -> distinct_names i2 ->
    init_model ord1 i1 = Ok m1 -> init_model ord2 i2 = Ok m2 -> length i1 <= 256 ->
    exists b, model_eq expand m1 m2 = Ok b /\ (b = true <-> same_system expand i1 i2).
  Proof.
    intros D1 D2 N1 N2 Hm1 Hm2 Hl.
    destruct (init_model_inv _ _ _ Hm1) as (S1 & E1 & _). destruct (init_model_inv _ _ _ Hm2) as (S2 & E2 & _).
    assert (P1 := sort_items_perm i1). assert (P2 := sort_items_perm i2).
    assert (L1 : length (m_dict m1) = length i1) by (rewrite E1; symmetry; apply Permutation_length; exact P1).
    assert (L2 : length (m_dict m2) = length i2) by (rewrite E2; symmetry; apply Permutation_length; exact P2).
    assert (Hsame_len : same_system expand i1 i2 -> length i1 = length i2).
    { intros [Hk _]. rewrite <- (map_length fst i1), <- (map_length fst i2).
      apply Permutation_length. apply NoDup_Permutation; assumption. }
    unfold model_eq, int_is. rewrite L1, L2. destruct (Nat.eqb_spec (length i1) (length i2)) as [Heq|Hne].
    - replace (Nat.leb (length i1) 256) with true by (symmetry; apply Nat.leb_le; exact Hl). cbn [andb].
      destruct (eq_items_ok expand (m_dict m1) (m_dict m2)) as (b & Hb & Hiff).
      + rewrite E1. eapply symbolic_perm; eauto.
      + rewrite E2. eapply symbolic_perm; eauto.
      + lia.
      + exists b. split; [exact Hb|]. rewrite Hiff.
        set (P := fun c d : comp => exists e1 e2, c = CExpr e1 /\ d = CExpr e2 /\ expand e1 = expand e2).
        change (Forall2 (fun x y : sym * comp => fst x = fst y /\ P (snd x) (snd y)) (m_dict m1) (m_dict m2) <-> same_system expand i1 i2).
        assert (Kk1 : forall k, In k (dkeys (m_dict m1)) <-> In k (dkeys i1)) by (intros k; rewrite E1; symmetry; apply dkeys_perm; exact P1).
        assert (Kk2 : forall k, In k (dkeys (m_dict m2)) <-> In k (dkeys i2)) by (intros k; rewrite E2; symmetry; apply dkeys_perm; exact P2).
        assert (ND1 : NoDup (dkeys (m_dict m1))) by (rewrite E1; eapply Permutation_NoDup; [apply Permutation_map; exact P1|exact D1]).
        split.
        * intros Hf. split.
          -- intros k. rewrite <- Kk1, <- Kk2, (Forall2_keys P _ _ Hf). reflexivity.
          -- intros k e1 e2 H1 H2. apply (Permutation_in _ P1) in H1. apply (Permutation_in _ P2) in H2. rewrite <- E1 in H1. rewrite <- E2 in H2.
             clear -Hf H1 H2 ND1. assert (Hk := Forall2_keys P _ _ Hf).
             induction Hf as [|[a c] [b d] l l' (Hab & x & y & Hx & Hy & Hxy) Hf IH]; [contradiction|].
             simpl in *. subst. inversion ND1 as [|? ? Hn1 Hn2]; subst. inversion Hk as [Hk'].
             destruct H1 as [H1|H1], H2 as [H2|H2].
             ++ inv H1; inv H2. exact Hxy.
             ++ inv H1. exfalso. apply Hn1. rewrite Hk'. eapply in_key; eauto.
             ++ inv H2. exfalso. apply Hn1. eapply in_key; eauto.
             ++ apply IH; assumption.
        * intros [Hk He]. apply Forall2_of_keys.
          -- rewrite E1, E2, !dkeys_sort_items. apply sort_by_perm_eq.
             ++ intros s t Hs Ht. apply N1; left; assumption.
             ++ apply NoDup_Permutation; assumption.
          -- exact ND1.
          -- intros k x y Hx Hy. rewrite E1 in Hx. rewrite E2 in Hy.
             apply (Permutation_in _ (Permutation_sym P1)) in Hx. apply (Permutation_in _ (Permutation_sym P2)) in Hy.
             destruct (S1 k x Hx) as (e1 & ->). destruct (S2 k y Hy) as (e2 & ->). exists e1, e2. repeat split. eapply He; eauto.
    - cbn [andb]. exists false. split; [reflexivity|]. split; [discriminate|]. intros Hs. apply Hsame_len in Hs. contradiction.
  Qed.

  Lemma model_eq_large expand (m1 m2 : model) : 256 < length (m_dict m1) -> model_eq expand m1 m2 = Ok false.
  Proof.
    intros Hl. unfold model_eq, int_is. replace (Nat.leb _ 256) with false by (symmetry; apply Nat.leb_gt; exact Hl).
    rewrite andb_false_r. reflexivity.
  Qed.

  Lemma model_eq_any expand ord1 ord2 (i1 i2 : dict sym comp) (m1 m2 : model) :
    is_dict i1 -> is_dict i2 -> distinct_names i1 -> distinct_names i2 ->
    init_model ord1 i1 = Ok m1 -> init_model ord2 i2 = Ok m2 ->
    exists b, model_eq expand m1 m2 = Ok b /\
      (b = true <-> (length i1 <= 256 /\ forall k, In k (dkeys i1) <-> In k (dkeys i2)) /\
                    (forall k e1 e2, In (k, CExpr e1) i1 -> In (k, CExpr e2) i2 -> expand e1 = expand e2)).
  Proof.
    intros D1 D2 N1 N2 H1 H2. destruct (Nat.le_gt_cases (length i1) 256) as [Hl|Hl].
    - destruct (model_eq_small expand ord1 ord2 i1 i2 m1 m2 D1 D2 N1 N2 H1 H2 Hl) as (b & Hb & Hiff).
      exists b. split; [exact Hb|]. rewrite Hiff. unfold same_system. tauto.
    - exists false. split; [|split; [discriminate|intros [[H _] _]; lia]]. apply model_eq_large.
      destruct (init_model_inv _ _ _ H1) as (_ & E1 & _). rewrite E1, <- (Permutation_length (sort_items_perm i1)). exact Hl.
  Qed.

  Lemma model_eq_equivalence expand ord1 ord2 ord3 (i1 i2 i3 : dict sym comp) (m1 m2 m3 : model) :
    is_dict i1 -> is_dict i2 -> is_dict i3 -> distinct_names i1 -> distinct_names i2 -> distinct_names i3 ->
    init_model ord1 i1 = Ok m1 -> init_model ord2 i2 = Ok m2 -> init_model ord3 i3 = Ok m3 ->
    model_eq expand m1 m2 = model_eq expand m2 m1 /\
    (model_eq expand m1 m2 = Ok true -> model_eq expand m2 m3 = Ok true -> model_eq expand m1 m3 = Ok true).
  Proof.
    intros D1 D2 D3 N1 N2 N3 H1 H2 H3.
    assert (Hlen : forall (a b : dict sym comp), is_dict a -> is_dict b -> (forall k, In k (dkeys a) <-> In k (dkeys b)) -> length a = length b).
    { intros a b Da Db Hk. rewrite <- (map_length fst a), <- (map_length fst b). apply Permutation_length. apply NoDup_Permutation; assumption. }
    destruct (model_eq_any expand ord1 ord2 i1 i2 m1 m2 D1 D2 N1 N2 H1 H2) as (b12 & E12 & I12).
    destruct (model_eq_any expand ord2 ord1 i2 i1 m2 m1 D2 D1 N2 N1 H2 H1) as (b21 & E21 & I21).
    destruct (model_eq_any expand ord2 ord3 i2 i3 m2 m3 D2 D3 N2 N3 H2 H3) as (b23 & E23 & I23).
    destruct (model_eq_any expand ord1 ord3 i1 i3 m1 m3 D1 D3 N1 N3 H1 H3) as (b13 & E13 & I13).
    split.
    - rewrite E12, E21. f_equal. apply eq_true_iff_eq. rewrite I12, I21. split; intros [[Hl Hk] He].
      + split; [split; [rewrite (Hlen i2 i1 D2 D1); [exact Hl|intros k; symmetry; apply Hk]|intros k; symmetry; apply Hk]|]. intros k e1 e2 A B. symmetry. eapply He; eauto.
      + split; [split; [rewrite (Hlen i1 i2 D1 D2); [exact Hl|intros k; symmetry; apply Hk]|intros k; symmetry; apply Hk]|]. intros k e1 e2 A B. symmetry. eapply He; eauto.
    - intros A B. rewrite E12 in A. rewrite E23 in B. inv A. inv B. destruct (proj1 I12 eq_refl) as [[L1 K1] X1]. destruct (proj1 I23 eq_refl) as [[L2 K2] X2].
      rewrite E13. f_equal. apply I13. split; [split; [exact L1|intros k; rewrite K1; apply K2]|].
      intros k e1 e3 A B. assert (Hk : In k (dkeys i2)) by (apply K1; eapply in_key; eauto).
      apply in_map_iff in Hk as ([k' c] & Hk & Hin). simpl in Hk. subst k'. destruct (init_model_inv _ _ _ H2) as (S2 & _).
      destruct (S2 k c Hin) as (e2 & ->). rewrite (X1 k e1 e2 A Hin). apply (X2 k e2 e3 Hin B).
  Qed.

  (** *** shared parameters *)
  Lemma in_seperate_params ord e p : set_order ord -> In p (snd (seperate_symbols ord e)) <-> mentions e p /\ is_par p = true.
  Proof.
    intros Ho. unfold seperate_symbols. simpl. rewrite in_sort_by, filter_In, in_ord by exact Ho. rewrite mentions_free.
    split; [tauto|]. intros [Hm Hp]. repeat split; auto. destruct p; simpl in *; try discriminate; reflexivity.
  Qed.

  Lemma shared_loop_ok ord : set_order ord -> forall (cs : list comp) thusfar,
    (forall c, In c cs -> exists e, c = CExpr e) ->
    exists b, shared_loop ord cs thusfar = Ok b /\
      (b = true <->
        exists p, is_par p = true /\
          ((exists e, In (CExpr e) cs /\ mentions e p /\ In p thusfar) \/
           (exists c1 c2 c3 e1 e2, cs = c1 ++ CExpr e1 :: c2 ++ CExpr e2 :: c3 /\ mentions e1 p /\ mentions e2 p))).
  Proof.
    intros Ho. induction cs as [|c cs IH]; intros thusfar Hs; simpl.
    - exists false. split; [reflexivity|]. split; [discriminate|].
      intros (p & _ & [(e & [] & _)|(c1 & c2 & c3 & e1 & e2 & Hq & _)]). destruct c1; discriminate.
    - destruct (Hs c) as (e & ->); [left; reflexivity|].
      destruct (existsb _ _) eqn:Hex.
      + exists true. split; [reflexivity|]. split; [|reflexivity]. intros _.
        apply existsb_exists in Hex as (p & Hp & Hin). apply (in_seperate_params ord e p Ho) in Hp as [Hm Hp]. apply inb_In in Hin.
        exists p. split; [exact Hp|]. left. exists e. split; [left; reflexivity|auto].
      + destruct (IH (thusfar ++ snd (seperate_symbols ord e))) as (b & Hb & Hiff); [intros c Hc; apply Hs; right; exact Hc|].
        exists b. split; [exact Hb|]. rewrite Hiff. clear Hiff IH Hb. split.
        * intros (p & Hp & [(e' & Hin & Hm & Ht)|(c1 & c2 & c3 & e1 & e2 & Hq & Hm1 & Hm2)]); exists p; (split; [exact Hp|]).
          -- apply in_app_iff in Ht as [Ht|Ht].
             ++ left. exists e'. split; [right; exact Hin|auto].
             ++ right. apply (in_seperate_params ord e p Ho) in Ht as [Hm0 _]. apply in_split in Hin as (a & b' & ->).
                exists [], a, b', e, e'. auto.
          -- right. exists (CExpr e :: c1), c2, c3, e1, e2. rewrite Hq. auto.
        * intros (p & Hp & [(e' & [Hin|Hin] & Hm & Ht)|(c1 & c2 & c3 & e1 & e2 & Hq & Hm1 & Hm2)]).
          -- exfalso. inv Hin. apply not_true_iff_false in Hex. apply Hex. apply existsb_exists. exists p. split; [apply (in_seperate_params ord); auto|apply inb_In; exact Ht].
          -- exists p. split; [exact Hp|]. left. exists e'. repeat split; auto. apply in_or_app; auto.
          -- exists p. split; [exact Hp|]. destruct c1 as [|c1a c1]; simpl in Hq; inv Hq.
             ++ left. exists e2. repeat split; auto; [apply in_or_app; right; left; reflexivity|].
                apply in_or_app; right. apply (in_seperate_params ord); auto.
             ++ right. exists c1, c2, c3, e1, e2. auto.
  Qed.

  Lemma shared_parameters_ok ord1 ord2 (items : dict sym comp) (m : model) :
    set_order ord1 -> set_order ord2 -> is_dict items -> init_model ord1 items = Ok m ->
    exists b, shared_parameters ord2 m = Ok b /\
      (b = true <-> exists p k1 k2, is_par p = true /\ k1 <> k2 /\ refers items k1 p /\ refers items k2 p).
  Proof.
    intros Ho1 Ho2 Hd Hi. destruct (init_model_inv _ _ _ Hi) as (S & E & _).
    assert (P := sort_items_perm items).
    assert (ND : NoDup (dkeys (m_dict m))) by (rewrite E; eapply Permutation_NoDup; [apply Permutation_map; exact P|exact Hd]).
    assert (Sm : symbolic (m_dict m)) by (rewrite E; eapply symbolic_perm; eauto).
    assert (Hr : forall k s, refers (m_dict m) k s <-> refers items k s).
    { intros k s. rewrite E. symmetry. apply refers_perm. exact P. }
    assert (Hgoal : forall b, (b = true <-> exists p k1 k2, is_par p = true /\ k1 <> k2 /\ refers (m_dict m) k1 p /\ refers (m_dict m) k2 p) ->
              (b = true <-> exists p k1 k2, is_par p = true /\ k1 <> k2 /\ refers items k1 p /\ refers items k2 p)).
    { intros b ->. split; intros (p & k1 & k2 & H1 & H2 & H3 & H4); exists p, k1, k2; repeat split; auto; apply Hr; assumption. }
    clear E P. unfold shared_parameters. destruct (Nat.eqb_spec (length (m_dict m)) 1) as [Hl|Hl].
    - exists false. split; [reflexivity|]. apply Hgoal. split; [discriminate|].
      intros (p & k1 & k2 & _ & Hne & (e1 & H1 & _) & (e2 & H2 & _)). exfalso. apply Hne.
      destruct (m_dict m) as [|[k c] [|? ?]]; simpl in Hl; try discriminate.
      destruct H1 as [H1|[]], H2 as [H2|[]]. inv H1; inv H2. reflexivity.
    - destruct (shared_loop_ok ord2 Ho2 (dvals (m_dict m)) []) as (b & Hb & Hiff).
      { intros c Hc. apply in_map_iff in Hc as ([k c'] & Hq & Hin). simpl in Hq; subst. apply (Sm k c Hin). }
      exists b. split; [exact Hb|]. apply Hgoal. rewrite Hiff. split.
      + intros (p & Hp & [(e & _ & _ & [])|(c1 & c2 & c3 & e1 & e2 & Hq & Hm1 & Hm2)]).
        unfold dvals in Hq. apply map_eq_app in Hq as (d1 & d' & Hd' & Hq1 & Hq2).
        apply map_eq_cons in Hq2 as ([k1 x1] & d2' & Hd2' & Hx1 & Hq2). simpl in Hx1; subst x1.
        apply map_eq_app in Hq2 as (d2 & d'' & Hd'' & Hq3 & Hq4).
        apply map_eq_cons in Hq4 as ([k2 x2] & d3 & Hd3 & Hx2 & Hq4). simpl in Hx2; subst.
        exists p, k1, k2. split; [exact Hp|]. split; [|split].
        * intros ->. rewrite Hd' in ND. unfold dkeys in ND. rewrite map_app in ND. simpl in ND. rewrite map_app in ND. simpl in ND.
          apply NoDup_app_split in ND as (_ & ND & _). inv ND. apply H1. apply in_or_app; right; left; reflexivity.
        * exists e1. split; [|exact Hm1]. rewrite Hd'. apply in_or_app; right; left; reflexivity.
        * exists e2. split; [|exact Hm2]. rewrite Hd'. apply in_or_app; right; right. apply in_or_app; right; left; reflexivity.
      + intros (p & k1 & k2 & Hp & Hne & (e1 & H1 & Hm1) & (e2 & H2 & Hm2)). exists p. split; [exact Hp|]. right.
        apply in_split in H1 as (a & b' & Hab). rewrite Hab in H2. unfold dvals. rewrite Hab.
        apply in_app_iff in H2 as [H2|[H2|H2]]; [| |].
        * apply in_split in H2 as (c & d & ->). exists (map snd c), (map snd d), (map snd b'), e2, e1.
          rewrite !map_app. simpl. rewrite <- app_assoc. simpl. auto.
        * inv H2. contradiction.
        * apply in_split in H2 as (c & d & ->). exists (map snd a), (map snd c), (map snd d), e1, e2.
          rewrite map_app. simpl. rewrite map_app. simpl. auto.
  Qed.
End ModelMisc.
