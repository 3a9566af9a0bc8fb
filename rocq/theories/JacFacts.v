(** * JacFacts: the symbolic part of the Jacobian construction. *)
From Verif Require Import PyBase PyFacts Toposort ToposortFacts Signature SignatureFacts Expr Model ModelSpec ModelFacts CallFacts InitFacts ConstraintFacts AsConstraint Jacobian.
From Coq Require Import Relations.

Section Wo.
  Context (edge : sym -> sym -> Prop).
  Lemma wo_ind (P : sym -> Prop) l : well_ordered edge l ->
    (forall x, In x l -> (forall y, edge x y -> P y) -> P x) -> forall x, In x l -> P x.
  Proof.
    intros Hwo Hstep. assert (Hpre : forall n x, In x (firstn n l) -> P x).
    { induction n as [|n IH]; intros x Hx; [contradiction|].
      destruct (in_dec eq_dec x (firstn n l)) as [H|H]; [apply IH; exact H|].
      destruct (nth_error l n) as [y|] eqn:Hn.
      - assert (Hf : firstn (S n) l = firstn n l ++ [y]).
        { clear -Hn. revert n Hn. induction l as [|z l IH]; intros [|n] Hn; simpl in *; try discriminate.
          - inv Hn; reflexivity. - rewrite (IH n Hn); reflexivity. }
        rewrite Hf in Hx. apply in_app_iff in Hx as [Hx|[<-|[]]]; [contradiction|].
        apply Hstep; [eapply nth_error_In; exact Hn|]. intros z Hz. apply IH.
        apply (Hwo (firstn n l) y (skipn (S n) l)); [|exact Hz].
        rewrite <- (firstn_skipn n l) at 1. f_equal. clear -Hn. revert n Hn.
        induction l as [|w l IH]; intros [|n] Hn; simpl in *; try discriminate; [inv Hn; reflexivity|].
        rewrite (IH n Hn). destruct l; reflexivity.
      - assert (Hlen : List.length l <= n) by (apply nth_error_None; exact Hn).
        rewrite firstn_all2 in Hx by lia. rewrite firstn_all2 in H by lia. contradiction. }
    intros x Hx. apply (Hpre (List.length l)). rewrite firstn_all. exact Hx.
  Qed.
End Wo.

Lemma in_base s t : base s = base t -> is_der s = false -> is_der t = false -> s = t.
Proof. destruct s, t; simpl; congruence. Qed.

(** symbols of a derivative *)
Lemma diff_sym_occs v2f p s e t : diff_sym v2f p s = Ok e -> In t (occs e) ->
  (exists f, dget v2f (base s) = Some f) /\ t = canon (der_of s (sname p)).
Proof.
  unfold diff_sym. destruct (dget v2f (base s)) as [[u|n args]|]; intros He Ht.
  - inv He. destruct (eqb s p); destruct Ht.
  - split; [eauto|]. destruct (filter _ args) as [|[u|n' a'] [|? ?]]; try discriminate; inv He; simpl in Ht; intuition congruence.
  - inv He. destruct (eqb s p); destruct Ht.
Qed.

Lemma diff_occs ds e : forall e' t, diff ds e = Ok e' -> In t (occs e') ->
  In t (occs e) \/ exists s e1, In s (occs e) /\ ds s = Ok e1 /\ In t (occs e1).
Proof.
  induction e; simpl; intros e' t He Ht.
  - inv He. destruct Ht.
  - right. exists s, e'. auto.
  - apply bind_Ok in He as (a' & Ha & He). apply bind_Ok in He as (b' & Hb & He). inv He.
    simpl in Ht. rewrite !in_app_iff in *. destruct Ht as [Ht|Ht].
    + destruct (IHe1 _ _ Ha Ht) as [H|(s & x & H1 & H2 & H3)]; [auto|]. right. exists s, x. rewrite in_app_iff; auto.
    + destruct (IHe2 _ _ Hb Ht) as [H|(s & x & H1 & H2 & H3)]; [auto|]. right. exists s, x. rewrite in_app_iff; auto.
  - apply bind_Ok in He as (a' & Ha & He). apply bind_Ok in He as (b' & Hb & He). inv He.
    simpl in Ht. rewrite !in_app_iff in *. destruct Ht as [[Ht|Ht]|[Ht|Ht]]; auto.
    + destruct (IHe1 _ _ Ha Ht) as [H|(s & x & H1 & H2 & H3)]; [auto|]. right. exists s, x. rewrite in_app_iff; auto.
    + destruct (IHe2 _ _ Hb Ht) as [H|(s & x & H1 & H2 & H3)]; [auto|]. right. exists s, x. rewrite in_app_iff; auto.
  - apply bind_Ok in He as (a' & Ha & He). inv He. destruct n; [destruct Ht|]. simpl in Ht. rewrite in_app_iff in Ht.
    destruct Ht as [Ht|Ht]; [auto|]. destruct (IHe _ _ Ha Ht) as [H|H]; auto.
  - apply bind_Ok in He as (a' & Ha & He). inv He. simpl in Ht. rewrite in_app_iff in Ht.
    destruct Ht as [Ht|Ht]; [|auto]. destruct (IHe _ _ Ha Ht) as [H|H]; auto.
  - apply bind_Ok in He as (a' & Ha & He). inv He.
    assert (Ht' : In t (occs a') \/ In t (occs e)) by (destruct f; simpl in Ht; rewrite in_app_iff in Ht; exact Ht).
    destruct Ht' as [Ht'|Ht']; [|auto]. destruct (IHe _ _ Ha Ht') as [H|H]; auto.
Qed.

Section JacFacts.
  Context {V : Type} (A : alg V) (simp : expr -> expr).
  Notation model := (model (V:=V)).
  Notation comp := (comp (V:=V)).
  Hypothesis Hsimp : forall e s, In s (occs (simp e)) -> In s (occs e).

  (** *** the rows *)
  Lemma in_mapM {X Y} (f : X -> res Y) l l' y : mapM f l = Ok l' -> In y l' -> exists x, In x l /\ f x = Ok y.
  Proof.
    revert l'. induction l as [|x l IH]; simpl; intros l' Hm Hy; [inv Hm; destruct Hy|].
    apply bind_Ok in Hm as (y0 & H0 & Hm). apply bind_Ok in Hm as (ys & Hys & Hm). inv Hm.
    destruct Hy as [<-|Hy]; [exists x; auto|]. destruct (IH _ Hys Hy) as (x1 & H1 & H2). exists x1; auto.
  Qed.
  Lemma mapM_in {X Y} (f : X -> res Y) l l' x : mapM f l = Ok l' -> In x l -> exists y, In y l' /\ f x = Ok y.
  Proof.
    revert l'. induction l as [|x0 l IH]; simpl; intros l' Hm Hx; [destruct Hx|].
    apply bind_Ok in Hm as (y0 & H0 & Hm). apply bind_Ok in Hm as (ys & Hys & Hm). inv Hm.
    destruct Hx as [<-|Hx]; [exists y0; simpl; auto|]. destruct (IH _ Hys Hx) as (y1 & H1 & H2). exists y1; simpl; auto.
  Qed.

  Definition is_row (v2f : dict sym fobj) (ps : list sym) (I : dict sym comp) (k : sym) (c : comp) : Prop :=
    exists k0 e p e', In (k0, CExpr e) I /\ In p ps /\ diff (diff_sym v2f p) e = Ok e' /\
      k = der_of k0 (sname p) /\ c = CExpr (simp e').

  Lemma in_rows v2f ps (I : dict sym comp) rows k c : jac_rows simp v2f ps I = Ok rows -> In (k, c) rows -> is_row v2f ps I k c.
  Proof.
    unfold jac_rows. intros Hr Hin. apply bind_Ok in Hr as (rr & Hm & Hr). inv Hr.
    apply in_concat in Hin as (row & Hrow & Hin). destruct (in_mapM _ _ _ _ Hm Hrow) as ([k0 c0] & Hk0 & Hm0).
    destruct (in_mapM _ _ _ _ Hm0 Hin) as (p & Hp & Hq). simpl in Hq. destruct c0 as [e|]; [|discriminate].
    apply bind_Ok in Hq as (e' & He & Hq). inv Hq. exists k0, e, p, e'. auto.
  Qed.
  Lemma rows_in v2f ps (I : dict sym comp) rows k0 c0 p : jac_rows simp v2f ps I = Ok rows -> In (k0, c0) I -> In p ps ->
    exists e e', c0 = CExpr e /\ diff (diff_sym v2f p) e = Ok e' /\ In (der_of k0 (sname p), CExpr (simp e')) rows.
  Proof.
    unfold jac_rows. intros Hr Hin Hp. apply bind_Ok in Hr as (rr & Hm & Hr). inv Hr.
    destruct (mapM_in _ _ _ _ Hm Hin) as (row & Hrow & Hm0). destruct (mapM_in _ _ _ _ Hm0 Hp) as (y & Hy & Hq).
    simpl in Hq. destruct c0 as [e|]; [|discriminate]. apply bind_Ok in Hq as (e' & He & Hq). inv Hq.
    exists e, e'. split; [reflexivity|]. split; [exact He|]. apply in_concat. eauto.
  Qed.

  Lemma dget_dict_of_in (l : list (sym * comp)) k c : dget (dict_of l) k = Some c -> In (k, c) l.
  Proof.
    unfold dict_of. rewrite dget_dupdate. destruct (dget (rev l) k) as [v|] eqn:Hg; simpl; [|discriminate].
    intros Hq; inv Hq. apply dget_In in Hg. apply in_rev; exact Hg.
  Qed.
  Lemma in_dict_of_key (l : list (sym * comp)) k c : In (k, c) l -> exists c', dget (dict_of l) k = Some c'.
  Proof.
    intros Hin. unfold dict_of. rewrite dget_dupdate. destruct (dget (rev l) k) eqn:Hg; [eauto|].
    apply dget_None in Hg. exfalso. apply Hg. apply in_rev in Hin. change k with (fst (k, c)). apply in_map; exact Hin.
  Qed.

  Section Items.
    Context (v2f : dict sym fobj) (ps : list sym) (I J : dict sym comp).
    Hypothesis HJ : jac_items simp v2f ps I = Ok J.
    Hypothesis HI : is_dict I.
    Hypothesis Hkp : forall k, In k (dkeys I) -> is_par k = false.
    Hypothesis Hvp : forall k f, dget v2f k = Some f -> is_par k = false.

    Lemma jac_is_dict : is_dict J.
    Proof using HJ. clear HI.
      unfold jac_items in HJ. apply bind_Ok in HJ as (rows & _ & Hq). inv Hq. apply NoDup_dupdate.
      unfold dict_of. apply NoDup_dupdate. constructor.
    Qed.
    Lemma jac_keep k c : In (k, c) I -> In (k, c) J.
    Proof using HJ HI.
      intros Hin. unfold jac_items in HJ. apply bind_Ok in HJ as (rows & _ & Hq). inv Hq.
      apply dget_In. rewrite dget_dupdate_nodup by exact HI. rewrite (In_dget I k c HI Hin). reflexivity.
    Qed.
    Lemma jac_sound k c : In (k, c) J -> In (k, c) I \/ is_row v2f ps I k c.
    Proof using HJ HI.
      intros Hin. pose proof jac_is_dict as Hd. apply (In_dget J k c Hd) in Hin.
      unfold jac_items in HJ. apply bind_Ok in HJ as (rows & Hr & Hq). inv Hq.
      rewrite dget_dupdate_nodup in Hin by exact HI. destruct (dget I k) as [c'|] eqn:Hg.
      - inv Hin. left. apply dget_In; exact Hg.
      - right. eapply in_rows; [exact Hr|]. apply dget_dict_of_in; exact Hin.
    Qed.
    Lemma jac_key k0 p : In k0 (dkeys I) -> In p ps -> In (der_of k0 (sname p)) (dkeys J).
    Proof using HJ HI.
      intros Hk Hp. apply in_map_iff in Hk as ([k c] & Hk & Hin). simpl in Hk; subst k.
      unfold jac_items in HJ. apply bind_Ok in HJ as (rows & Hr & Hq). inv Hq.
      destruct (rows_in _ _ _ _ _ _ _ Hr Hin Hp) as (e & e' & -> & He & Hrow).
      destruct (in_dict_of_key _ _ _ Hrow) as (c' & Hc').
      set (k := der_of k0 (sname p)) in *.
      assert (exists c'', dget (dupdate (dict_of rows) I) k = Some c'').
      { rewrite dget_dupdate_nodup by exact HI. destruct (dget I k); eauto. }
      destruct H as (c'' & H). eapply dget_Some_key; exact H.
    Qed.
    Lemma jac_symbolic : symbolic I -> symbolic J.
    Proof using HJ HI.
      intros Hs k c Hin. destruct (jac_sound k c Hin) as [H|(k0 & e & p & e' & _ & _ & _ & _ & ->)]; [eauto|eauto].
    Qed.

    Lemma mentions_occ (e : expr) t : mentions e t -> exists u, In u (occs e) /\ base u = base t.
    Proof using. intros [H|(y & qs & H & ->)]; [exists t; auto|exists (SDer y qs); auto]. Qed.

    Lemma base_der_of s n : is_par s = false -> base (der_of s n) = base s.
    Proof using. destruct s; simpl; intros; try reflexivity; discriminate. Qed.
    Lemma base_canon s : base (canon s) = base s.
    Proof using. destruct s; reflexivity. Qed.
    Lemma key_of {X} (d : dict sym X) k c : In (k, c) d -> In k (dkeys d).
    Proof using. intros Hin. change k with (fst (k, c)). apply in_map; exact Hin. Qed.
    (** every edge of the derived system lies above one of the system *)
    Lemma jac_refers x t : refers J x t -> exists x' t', base x' = base x /\ base t' = base t /\ refers I x' t'.
    Proof using HJ HI Hsimp Hkp Hvp.
      intros (e & Hin & Hm). destruct (jac_sound _ _ Hin) as [H|(k0 & e0 & p & e' & Hin0 & Hp & He & Hk & Hc)].
      - exists x, t. split; [reflexivity|]. split; [reflexivity|]. exists e; auto.
      - inv Hc. destruct (mentions_occ _ _ Hm) as (u & Hu & Hb). apply Hsimp in Hu.
        assert (Hk0 : base k0 = base (der_of k0 (sname p))).
        { symmetry. apply base_der_of. apply Hkp. eapply key_of; exact Hin0. }
        exists k0. destruct (diff_occs _ _ _ _ He Hu) as [Hu'|(s & e1 & Hs & He1 & Hu')].
        + exists u. split; [exact Hk0|]. split; [exact Hb|]. exists e0. split; [exact Hin0|left; exact Hu'].
        + apply (diff_sym_occs _ _ _ _ u) in He1 as [(f & Hf) ->]; [|exact Hu'].
          exists s. split; [exact Hk0|]. split; [|exists e0; split; [exact Hin0|left; exact Hs]].
          rewrite <- Hb, base_canon. symmetry. apply base_der_of. apply Hvp in Hf. destruct s; [reflexivity|discriminate|reflexivity].
    Qed.
  End Items.

  (** *** the function objects *)
  Definition repl (v2f : dict sym fobj) (d : sym) : fobj := match dget v2f d with Some f => f | None => FSym d end.

  Lemma vaf_ok (m : model) : NoDup (dkeys (m_conn m)) -> (forall s deps, In (s, deps) (m_conn m) -> ~ In s deps) ->
    forall syms, NoDup syms -> well_ordered (proper_edge (m_conn m)) syms ->
    let v2f := fold_left (vaf_step m) syms [] in
    (forall k deps, In k syms -> dget (m_conn m) k = Some deps -> dget v2f k = Some (FApp (sname k) (map (repl v2f) deps))) /\
    (forall k, ~ In k syms \/ dget (m_conn m) k = None -> dget v2f k = None).
  Proof using.
    intros Hnd Hself syms. induction syms as [|x syms IH] using rev_ind; intros Hs Hwo v2f; unfold v2f.
    - split; [intros k deps []|reflexivity].
    - rewrite fold_left_app. simpl. destruct IH as [IH1 IH2].
      { apply NoDup_remove_1 in Hs. rewrite app_nil_r in Hs. exact Hs. }
      { intros p y q Hq z Hz. apply (Hwo p y (q ++ [x])); [rewrite Hq, <- app_assoc; reflexivity|exact Hz]. }
      set (acc := fold_left (vaf_step m) syms []) in *.
      assert (Hx : ~ In x syms). { apply NoDup_remove_2 in Hs. rewrite app_nil_r in Hs. exact Hs. }
      unfold vaf_step. destruct (dget (m_conn m) x) as [dx|] eqn:Hg.
      + assert (Hdx : ~ In x dx) by (apply (Hself x dx), dget_In; exact Hg).
        assert (Hrep : forall deps, ~ In x deps -> forall f, map (repl (dset acc x f)) deps = map (repl acc) deps).
        { intros deps Hn f. apply map_ext_in. intros d Hd. unfold repl. rewrite dget_dset.
          destruct (eq_dec d x) as [->|]; [contradiction|reflexivity]. }
        split.
        * intros k deps Hk Hc. rewrite dget_dset. destruct (eq_dec k x) as [->|Hne].
          -- rewrite Hg in Hc. inv Hc. rewrite Hrep by exact Hdx. reflexivity.
          -- apply in_app_iff in Hk as [Hk|[<-|[]]]; [|congruence]. rewrite Hrep; [apply IH1; auto|].
             intros Hin. apply Hx. apply in_split in Hk as (pr & po & Hpp).
             assert (Hy : In x pr).
             { apply (Hwo pr k (po ++ [x])); [rewrite Hpp, <- app_assoc; reflexivity|]. split; [|congruence].
               exists deps. split; [apply dget_In; exact Hc|exact Hin]. }
             rewrite Hpp. apply in_or_app; left; exact Hy.
        * intros k Hk. rewrite dget_dset. destruct (eq_dec k x) as [->|Hne].
          -- destruct Hk as [Hk|Hk]; [|congruence]. exfalso. apply Hk. apply in_or_app; right; left; reflexivity.
          -- apply IH2. destruct Hk as [Hk|Hk]; [left|right; exact Hk]. intros Hin. apply Hk. apply in_or_app; auto.
      + split.
        * intros k deps Hk Hc. apply in_app_iff in Hk as [Hk|[<-|[]]]; [auto|congruence].
        * intros k Hk. apply IH2. destruct Hk as [Hk|Hk]; [left|right; exact Hk]. intros Hin. apply Hk. apply in_or_app; auto.
  Qed.

  Lemma in_ffree_app n args p : In p (ffree (FApp n args)) <-> exists a, In a args /\ In p (ffree a).
  Proof using. simpl. apply in_flat_map. Qed.

  Lemma key_dget {X} (d : dict sym X) k : In k (dkeys d) -> exists c, dget d k = Some c.
  Proof using. intros Hk. destruct (dget d k) eqn:Hg; [eauto|]. apply dget_None in Hg. contradiction. Qed.

  Section Model.
    Context (ord1 ord2 : list sym -> list sym) (items : dict sym comp) (m0 m : model) (ps : list sym) (v2f : dict sym fobj).
    Hypothesis Ho1 : set_order ord1.
    Hypothesis Ho2 : set_order ord2.
    Hypothesis Hd : is_dict items.
    Hypothesis Hself : no_self_reference items.
    Hypothesis Hkeys : forall k, In k (dkeys items) -> exists n, k = SVar n.
    Hypothesis Hnoder : forall k s, refers items k s -> is_der s = false.
    Hypothesis Hi : init_model ord1 items = Ok m0.
    Hypothesis Hp : set_params m0 ps = Ok m.
    Hypothesis Hps : forall p, In p ps -> is_par p = true.
    Hypothesis Hv : vars_as_functions ord2 m = Ok v2f.

    Lemma set_params_fields : m_dict m = m_dict m0 /\ m_conn m = m_conn m0 /\ m_indep m = m_indep m0 /\ m_params m = ps.
    Proof using Hp. clear Hv. unfold set_params in Hp. apply bind_Ok in Hp as (sg & _ & Hq). inv Hq. auto. Qed.

    Lemma conn_noself s deps : In (s, deps) (m_conn m0) -> ~ In s deps.
    Proof using Hi Ho1 Hself.
      intros Hin Hs. apply (Hself s). apply (edge_items ord1 items m0 Ho1 Hi). exists deps; auto.
    Qed.

    Definition item_edge := fun x y => y <> x /\ refers items x y.

    Lemma item_order : exists syms, NoDup syms /\ (forall s, In s syms <-> symbol_of items s) /\ well_ordered item_edge syms /\
      v2f = fold_left (vaf_step m0) syms [].
    Proof using Hi Ho1 Ho2 Hd Hp Hv.
      destruct set_params_fields as (E1 & E2 & _). unfold vars_as_functions in Hv. apply bind_Ok in Hv as (syms & Hs & Hq). inv Hq.
      unfold ordered_symbols in Hs. rewrite E2 in Hs. fold (ordered_symbols ord2 m0) in Hs.
      pose proof (conn_nodup ord1 items m0 Hd Hi) as Hnd.
      destruct (ordered_symbols_ok ord2 m0 syms Ho2 Hnd Hs) as (H1 & H2 & H3). exists syms.
      split; [exact H1|]. split; [intros s; rewrite H2; apply (node_items ord1 items m0 Ho1 Hi)|]. split.
      - intros pr x po Hq y [Hne Hr]. apply (H3 pr x po Hq). split; [|exact Hne]. apply (edge_items ord1 items m0 Ho1 Hi); exact Hr.
      - unfold vaf_step. rewrite E2. reflexivity.
    Qed.

    Lemma item_ind (P : sym -> Prop) : (forall x, symbol_of items x -> (forall y, refers items x y -> P y) -> P x) ->
      forall x, symbol_of items x -> P x.
    Proof using Hi Ho1 Ho2 Hd Hp Hv Hself.
      intros Hstep. destruct item_order as (syms & _ & Hin & Hwo & _). intros x Hx.
      apply (wo_ind item_edge P syms Hwo); [|apply Hin; exact Hx]. intros y Hy IH. apply Hstep; [apply Hin; exact Hy|].
      intros z Hz. apply IH. split; [|exact Hz]. intros ->. apply (Hself y); exact Hz.
    Qed.

    (** *** what the function objects are *)
    Lemma v2f_key k : In k (dkeys items) -> exists deps, (forall d, In d deps <-> refers items k d) /\ NoDup deps /\
      dget v2f k = Some (FApp (sname k) (map (repl v2f) deps)).
    Proof using Hi Ho1 Ho2 Hd Hp Hv Hself.
      intros Hk. destruct item_order as (syms & Hnd & Hin & Hwo & Hq).
      pose proof (conn_nodup ord1 items m0 Hd Hi) as Hndc.
      assert (Hwo' : well_ordered (proper_edge (m_conn m0)) syms).
      { intros pr x po Hpq y [Hy Hne]. apply (Hwo pr x po Hpq). split; [exact Hne|]. apply (edge_items ord1 items m0 Ho1 Hi); exact Hy. }
      destruct (vaf_ok m0 Hndc conn_noself syms Hnd Hwo') as [H1 _]. rewrite <- Hq in H1.
      assert (Hc : exists deps, dget (m_conn m0) k = Some deps).
      { apply key_dget. destruct (init_model_inv _ _ _ Hi) as (_ & _ & -> & _). rewrite dkeys_sym_conn, dkeys_sort_items.
        apply in_sort_by; exact Hk. }
      destruct Hc as (deps & Hc). exists deps. split; [|split; [|apply H1; [apply Hin; left; exact Hk|exact Hc]]].
      - intros d. rewrite <- (edge_items ord1 items m0 Ho1 Hi). apply dget_In in Hc. split.
        + intros H. exists deps; auto.
        + intros (ds & Hds & H). apply (In_dget _ _ _ Hndc) in Hc. apply (In_dget _ _ _ Hndc) in Hds. congruence.
      - apply dget_In in Hc. destruct (init_model_inv _ _ _ Hi) as (Hsym & _ & H2 & _). rewrite H2 in Hc.
        apply in_sym_conn in Hc as (c & _ & ->). destruct c; [apply NoDup_expr_deps; exact Ho1|constructor].
    Qed.
    Lemma v2f_nonkey k : ~ In k (dkeys items) -> dget v2f k = None.
    Proof using Hi Ho1 Ho2 Hd Hp Hv Hself.
      intros Hk. destruct item_order as (syms & Hnd & Hin & Hwo & Hq).
      pose proof (conn_nodup ord1 items m0 Hd Hi) as Hndc.
      assert (Hwo' : well_ordered (proper_edge (m_conn m0)) syms).
      { intros pr x po Hpq y [Hy Hne]. apply (Hwo pr x po Hpq). split; [exact Hne|]. apply (edge_items ord1 items m0 Ho1 Hi); exact Hy. }
      destruct (vaf_ok m0 Hndc conn_noself syms Hnd Hwo') as [_ H1]. rewrite <- Hq in H1. apply H1. right.
      apply dget_None. destruct (init_model_inv _ _ _ Hi) as (_ & _ & -> & _). rewrite dkeys_sym_conn, dkeys_sort_items.
      intros H. apply Hk. apply in_sort_by in H. exact H.
    Qed.
    Lemma v2f_nonpar k f : dget v2f k = Some f -> is_par k = false.
    Proof using Hi Ho1 Ho2 Hd Hp Hv Hself Hkeys.
      intros Hg. destruct (in_dec eq_dec k (dkeys items)) as [Hk|Hk].
      - destruct (Hkeys k Hk) as (n & ->). reflexivity.
      - rewrite (v2f_nonkey k Hk) in Hg. discriminate.
    Qed.

    (** [k] depends on [p], directly or through other components *)
    Definition on (k p : sym) : Prop := exists f, dget v2f k = Some f /\ In p (ffree f).
    Lemma on_iff k p : In k (dkeys items) -> (on k p <-> exists d, refers items k d /\ (d = p /\ ~ In d (dkeys items) \/ on d p)).
    Proof using Hi Ho1 Ho2 Hd Hp Hv Hself.
      intros Hk. destruct (v2f_key k Hk) as (deps & Hdeps & _ & Hg). unfold on. rewrite Hg. split.
      - intros (f & Hf & Hin). inv Hf. apply in_ffree_app in Hin as (a & Ha & Hin). apply in_map_iff in Ha as (d & <- & Hdd).
        exists d. split; [apply Hdeps; exact Hdd|]. unfold repl in Hin. destruct (dget v2f d) as [f|] eqn:Hgd.
        + right. eauto.
        + left. simpl in Hin. destruct Hin as [<-|[]]. split; [reflexivity|]. intros Hkd.
          destruct (v2f_key d Hkd) as (? & _ & _ & ?). congruence.
      - intros (d & Hr & Hc). eexists. split; [reflexivity|]. apply in_ffree_app. exists (repl v2f d). split.
        + apply in_map_iff. exists d. split; [reflexivity|]. apply Hdeps; exact Hr.
        + unfold repl. destruct Hc as [[-> Hn]|(f & -> & Hin)]; [|exact Hin]. rewrite (v2f_nonkey _ Hn). left; reflexivity.
    Qed.

    (** the derivative of a component name *)
    Lemma diff_sym_key k p e : In (base k) (dkeys items) -> diff_sym v2f p k = Ok e ->
      (~ on (base k) p /\ e = ENum 0) \/ (on (base k) p /\ e = ESym (canon (der_of k (sname p)))).
    Proof using Hi Ho1 Ho2 Hd Hp Hv Hself.
      intros Hk. unfold diff_sym. destruct (v2f_key _ Hk) as (deps & Hdeps & _ & Hg). rewrite Hg.
      destruct (filter _ (map (repl v2f) deps)) as [|a l] eqn:Hf.
      - intros Hq; inv Hq. left. split; [|reflexivity]. intros (f & Hgf & Hin). rewrite Hg in Hgf. inv Hgf.
        apply in_ffree_app in Hin as (a & Ha & Hin).
        assert (Hb : In a (filter (fun a => inb p (ffree a)) (map (repl v2f) deps))) by (apply filter_In; split; [exact Ha|apply inb_In; exact Hin]).
        rewrite Hf in Hb. destruct Hb.
      - intros Hq. right. split.
        + eexists. split; [exact Hg|]. apply in_ffree_app. exists a.
          assert (Ha : In a (filter (fun a => inb p (ffree a)) (map (repl v2f) deps))) by (rewrite Hf; left; reflexivity).
          apply filter_In in Ha as [Ha1 Ha2]. split; [exact Ha1|]. apply inb_In; exact Ha2.
        + destruct a; destruct l; try discriminate; inv Hq; reflexivity.
    Qed.
    Lemma diff_sym_other s p : ~ In (base s) (dkeys items) -> diff_sym v2f p s = Ok (ENum (if eqb s p then 1 else 0)%Z).
    Proof using Hi Ho1 Ho2 Hd Hp Hv Hself. intros Hn. unfold diff_sym. rewrite (v2f_nonkey _ Hn). reflexivity. Qed.

    (** *** systems derived from the model *)
    Record above (X : dict sym comp) : Prop := {
      ab_dict : is_dict X;
      ab_sym : symbolic X;
      ab_incl : forall k c, In (k, c) items -> In (k, c) X;
      ab_keys : forall k, In k (dkeys X) -> In k (dkeys items) \/
                  exists y n qs, k = SDer y (n :: qs) /\ In (SVar y) (dkeys items);
      ab_refers : forall x t, refers X x t -> refers items (base x) (base t);
      ab_der : forall x t, refers X x t -> is_der t = true -> In t (dkeys X)
    }.

    Section Above.
      Context (X : dict sym comp).
      Hypothesis Ha : above X.
      Hypothesis Hn : distinct_names X.

      Lemma above_self : no_self_reference X.
      Proof using Ha Hself. intros k Hr. apply (ab_refers X Ha) in Hr. exact (Hself _ Hr). Qed.
      Lemma above_nonpar k : In k (dkeys X) -> is_par k = false.
      Proof using Ha Hkeys.
        intros Hk. destruct (ab_keys X Ha k Hk) as [H|(y & n & qs & -> & _)]; [|reflexivity].
        destruct (Hkeys k H) as (n & ->). reflexivity.
      Qed.
      Lemma above_acyclic s : ~ clos_trans sym (refers_other X) s s.
      Proof using Ha Hself Ho1 Hd Hi.
        intros Hc. apply (init_acyclic ord1 items m0 Ho1 Hd Hi (base s)).
        assert (Hgen : forall a b, clos_trans sym (refers_other X) a b -> clos_trans sym (refers_other items) (base a) (base b)).
        { intros a b H. induction H as [a b [Hr _]|a b c _ IH1 _ IH2]; [|eapply t_trans; eassumption].
          apply t_step. apply (ab_refers X Ha) in Hr. split; [exact Hr|]. intros He. rewrite He in Hr. exact (Hself _ Hr). }
        apply Hgen; exact Hc.
      Qed.
      Lemma above_init ordx : set_order ordx -> exists xm, init_model ordx X = Ok xm.
      Proof using Ha Hn Hself Ho1 Hd Hi Hkeys.
        intros Hox. apply init_model_succeeds; auto.
        - apply (ab_dict X Ha). - apply (ab_sym X Ha). - exact above_nonpar. - exact above_acyclic.
        - destruct (layers_of_init ord1 items m0 Ho1 Hi) as (l0 & mid & top & Ht & _).
          pose proof (toposort_ok _ _ (conn_nodup ord1 items m0 Hd Hi) Ht) as (_ & _ & _ & Hne).
          assert (Htop : top <> []) by (apply Hne; right; apply in_or_app; right; left; reflexivity).
          destruct top as [|t top]; [congruence|].
          destruct (upper_layer ord1 items m0 Ho1 Hd Hi l0 mid (t :: top) (t :: top) t Ht) as (_ & u & (e & Hin & Hm) & Hne').
          { apply in_or_app; right; left; reflexivity. } { left; reflexivity. }
          exists t, u. split; [|exact Hne']. exists e. split; [apply (ab_incl X Ha); exact Hin|exact Hm].
      Qed.
      Lemma above_symbols s : is_der s = false -> (symbol_of X s <-> symbol_of items s).
      Proof using Ha Hnoder Hkeys.
        intros Hs. split.
        - intros [Hk|(k & Hr)].
          + destruct (ab_keys X Ha s Hk) as [H|(y & n & qs & -> & _)]; [left; exact H|discriminate].
          + right. exists (base k). apply (ab_refers X Ha) in Hr. destruct s; [exact Hr|exact Hr|discriminate].
        - intros [Hk|(k & e & Hin & Hm)].
          + apply in_map_iff in Hk as ([k c] & Hk & Hin). simpl in Hk; subst k. left. eapply key_of. apply (ab_incl X Ha); exact Hin.
          + right. exists k, e. split; [apply (ab_incl X Ha); exact Hin|exact Hm].
      Qed.
      Lemma above_key_iff s : is_der s = false -> (In s (dkeys X) <-> In s (dkeys items)).
      Proof using Ha.
        intros Hs. split; intros Hk.
        - destruct (ab_keys X Ha s Hk) as [H|(y & n & qs & -> & _)]; [exact H|discriminate].
        - apply in_map_iff in Hk as ([k c] & Hk & Hin). simpl in Hk; subst k. eapply key_of. apply (ab_incl X Ha); exact Hin.
      Qed.
      Lemma items_distinct : distinct_names items.
      Proof using Ha Hn Hnoder Hkeys.
        assert (Hsub : forall s, symbol_of items s -> symbol_of X s).
        { intros s Hs. apply above_symbols; [|exact Hs]. destruct Hs as [Hk|(k & Hr)]; [destruct (Hkeys s Hk) as (n & ->); reflexivity|].
          eapply Hnoder; exact Hr. }
        intros s t Hs Ht. apply Hn; auto.
      Qed.
      Lemma above_inputs ordx xm : set_order ordx -> init_model ordx X = Ok xm -> m_indep xm = m_indep m0 /\ m_params xm = m_params m0.
      Proof using Ha Hn Ho1 Hd Hi Hkeys Hnoder.
        intros Hox Hix. pose proof (ab_dict X Ha) as Hdx.
        destruct (lists_sorted ord1 items m0 Hi) as (S1 & S2 & _). destruct (lists_sorted ordx X xm Hix) as (T1 & T2 & _).
        destruct (lists_nodup ord1 items m0 Ho1 Hd Hi) as (N1 & N2 & _). destruct (lists_nodup ordx X xm Hox Hdx Hix) as (M1 & M2 & _).
        split; apply (alphabetical_unique sname).
        - intros a b Ha' Hb'. apply (in_indep_iff ordx X xm Hox Hdx Hix) in Ha'. apply (in_indep_iff ordx X xm Hox Hdx Hix) in Hb'. apply Hn; tauto.
        - apply NoDup_Permutation; auto. intros s.
          rewrite (in_indep_iff ordx X xm Hox Hdx Hix), (in_indep_iff ord1 items m0 Ho1 Hd Hi).
          destruct (is_der s) eqn:Hs.
          + split.
            * intros ([Hk|(k & Hr)] & _ & Hnk); [contradiction|]. exfalso. apply Hnk. eapply (ab_der X Ha); eassumption.
            * intros ([Hk|(k & Hr)] & _ & Hnk); [contradiction|]. rewrite (Hnoder k s Hr) in Hs; discriminate.
          + rewrite above_symbols, above_key_iff by exact Hs. reflexivity.
        - exact T1. - exact S1.
        - intros a b Ha' Hb'. apply (in_params_iff ordx X xm Hox Hdx Hix) in Ha'. apply (in_params_iff ordx X xm Hox Hdx Hix) in Hb'. apply Hn; tauto.
        - apply NoDup_Permutation; auto. intros s.
          rewrite (in_params_iff ordx X xm Hox Hdx Hix), (in_params_iff ord1 items m0 Ho1 Hd Hi).
          destruct (is_par s) eqn:Hs; [|split; intros (_ & H & _); discriminate].
          assert (Hder : is_der s = false) by (destruct s; auto; discriminate).
          assert (Hnk : ~ In s (dkeys items)). { intros Hk. destruct (Hkeys s Hk) as (n & ->). discriminate. }
          rewrite (above_symbols s Hder). split; (intros (H & _ & _); split; [exact H|]; split; [reflexivity|]); intros t (e & Hin & _); exfalso.
          + apply Hnk. eapply key_of; exact Hin.
          + apply Hnk. apply (above_key_iff s Hder). eapply key_of; exact Hin.
        - exact T2. - exact S2.
      Qed.

      (** a solution of the derived system solves the model *)
      Lemma above_solution inp valx : solution A X inp valx ->
        (forall k e, In (k, CExpr e) items -> valx k = eval A valx e) /\
        (forall s, is_der s = false -> ~ In s (dkeys items) -> valx s = inp s).
      Proof using Ha.
        intros [H1 H2]. split.
        - intros k e Hin. apply H1. apply (ab_incl X Ha); exact Hin.
        - intros s Hs Hk. apply H2. intros H. apply Hk. apply (above_key_iff s Hs); exact H.
      Qed.
      Lemma above_agree inp val valx : solution A X inp valx -> solution A items inp val ->
        forall s, symbol_of items s -> valx s = val s.
      Proof using Ha Hi Ho1 Ho2 Hd Hp Hv Hself Hkeys Hnoder.
        intros Hx [G1 G2]. destruct (above_solution inp valx Hx) as [F1 F2]. pose proof (init_model_inv _ _ _ Hi) as (Hsym & _).
        apply item_ind. intros s Hs IH. destruct (in_dec eq_dec s (dkeys items)) as [Hk|Hk].
        - apply in_map_iff in Hk as ([k c] & Hk & Hin). simpl in Hk; subst k. destruct (Hsym _ _ Hin) as (e & ->).
          rewrite (F1 s e Hin), (G1 s e Hin). apply eval_ext. intros t Ht. apply IH. exists e. split; [exact Hin|left; exact Ht].
        - rewrite G2 by exact Hk. apply F2; [|exact Hk]. destruct Hs as [H|(k & Hr)]; [contradiction|]. eapply Hnoder; exact Hr.
      Qed.

      Lemma above_call ordx : set_order ordx ->
        (forall p, In p (m_params m0) -> In p ps) -> (forall k p, In k (dkeys X) -> In p ps -> sname k <> sname p) ->
        exists xm xm', init_model ordx X = Ok xm /\ set_params xm ps = Ok xm' /\
          forall ord3 inp, set_order ord3 -> exists valx, solution A X inp valx /\
            forall args kw, supplies (named inp (m_indep m ++ m_params m)) args kw ->
            call A ord3 xm' args kw = Ok {| mo_vars := sort_by sname (dkeys X); mo_out := map valx (sort_by sname (dkeys X)) |}.
      Proof using Ha Hn Ho1 Hd Hi Hkeys Hnoder Hself Hp.
        intros Hox Hsub Hpn. destruct (above_init ordx Hox) as (xm & Hix). destruct (above_inputs ordx xm Hox Hix) as [E1 E2].
        assert (Hsp : exists xm', set_params xm ps = Ok xm').
        { unfold set_params in *. rewrite E1. apply bind_Ok in Hp as (sg & Hsg & _). rewrite Hsg. simpl. eauto. }
        destruct Hsp as (xm' & Hsp). exists xm, xm'. split; [exact Hix|]. split; [exact Hsp|]. intros ord3 inp Ho3.
        destruct (solution_exists A ordx X xm inp Hox (ab_dict X Ha) above_self Hix) as (valx & Hsol & _).
        exists valx. split; [exact Hsol|]. intros args kw Hsup. destruct set_params_fields as (_ & _ & E3 & E4).
        rewrite E3, E4 in Hsup. rewrite <- E1 in Hsup.
        apply (call_set_params A ordx ord3 X xm xm' ps inp valx args kw Hox Ho3 (ab_dict X Ha) Hn above_self above_nonpar Hix Hsp); auto.
        intros p Hpp. apply Hsub. rewrite <- E2; exact Hpp.
      Qed.
    End Above.

    (** *** the Jacobian and Hessian systems *)
    Lemma m_dict_perm : Permutation items (m_dict m).
    Proof using Hp Hi. destruct set_params_fields as (-> & _). destruct (init_model_inv _ _ _ Hi) as (_ & -> & _). apply sort_items_perm. Qed.
    Lemma m_dict_in k c : In (k, c) (m_dict m) <-> In (k, c) items.
    Proof using Hp Hi. split; apply Permutation_in; [symmetry|]; exact m_dict_perm. Qed.
    Lemma m_dict_key k : In k (dkeys (m_dict m)) <-> In k (dkeys items).
    Proof using Hp Hi. symmetry. apply dkeys_perm. exact m_dict_perm. Qed.
    Lemma m_dict_refers k s : refers (m_dict m) k s <-> refers items k s.
    Proof using Hp Hi. symmetry. apply refers_perm. exact m_dict_perm. Qed.
    Lemma m_dict_dict : is_dict (m_dict m).
    Proof using Hp Hi Hd. eapply Permutation_NoDup; [apply Permutation_map; exact m_dict_perm|exact Hd]. Qed.
    Lemma m_dict_nonpar k : In k (dkeys (m_dict m)) -> is_par k = false.
    Proof using Hp Hi Hkeys. intros H. apply m_dict_key in H. destruct (Hkeys k H) as (n & ->). reflexivity. Qed.
    Lemma base_key k : In k (dkeys items) -> base k = k.
    Proof using Hkeys. intros H. destruct (Hkeys k H) as (n & ->). reflexivity. Qed.

    Section JH.
      Context (J H : dict sym comp).
      Hypothesis HJ : jac_items simp v2f ps (m_dict m) = Ok J.

      Lemma J_key_inv k : In k (dkeys J) -> In k (dkeys items) \/
        exists y p, k = SDer y [sname p] /\ In p ps /\ In (SVar y) (dkeys items).
      Proof using HJ Hkeys Hp Hi Hd.
        intros Hk. apply in_map_iff in Hk as ([k' c] & Hk & Hin). simpl in Hk; subst k'.
        destruct (jac_sound _ _ _ _ HJ m_dict_dict _ _ Hin) as [H0|(k0 & e & p & e' & Hin0 & Hpp & _ & -> & _)].
        - left. apply m_dict_key. eapply key_of; exact H0.
        - right. apply key_of in Hin0. apply m_dict_key in Hin0. destruct (Hkeys k0 Hin0) as (y & ->). exists y, p. auto.
      Qed.
      Lemma J_occ k e s : In (k, CExpr e) J -> In s (occs e) -> (refers items (base k) s) \/
        exists y p, s = SDer y [sname p] /\ In p ps /\ In (SVar y) (dkeys items) /\ refers items (base k) (SVar y).
      Proof using HJ Hkeys Hp Hi Hd Hsimp Ho1 Ho2 Hv Hself Hnoder.
        intros Hin Hs. destruct (jac_sound _ _ _ _ HJ m_dict_dict _ _ Hin) as [H0|(k0 & e0 & p & e' & Hin0 & Hpp & He & -> & Hc)].
        - left. apply m_dict_in in H0. rewrite base_key by (eapply key_of; exact H0). exists e. split; [exact H0|left; exact Hs].
        - inv Hc. apply Hsimp in Hs. apply m_dict_in in Hin0. pose proof (key_of _ _ _ Hin0) as Hk0.
          destruct (Hkeys k0 Hk0) as (z & ->). simpl.
          destruct (diff_occs _ _ _ _ He Hs) as [Hu|(u & e1 & Hu & He1 & Hu')].
          + left. exists e0. split; [exact Hin0|left; exact Hu].
          + right. apply (diff_sym_occs _ _ _ _ s) in He1 as [(f & Hf) ->]; [|exact Hu'].
            assert (Hr : refers items (SVar z) u) by (exists e0; split; [exact Hin0|left; exact Hu]).
            pose proof (Hnoder _ _ Hr) as Hnd. apply v2f_nonpar in Hf as Hpar.
            destruct u as [y|y|y qs]; [|discriminate|discriminate]. exists y, p. simpl. split; [reflexivity|]. split; [exact Hpp|].
            split; [|exact Hr]. simpl in Hf. destruct (in_dec eq_dec (SVar y) (dkeys items)) as [|Hk]; [assumption|].
            rewrite (v2f_nonkey _ Hk) in Hf; discriminate.
      Qed.
      Lemma J_der_key y p : In (SVar y) (dkeys items) -> In p ps -> In (SDer y [sname p]) (dkeys J).
      Proof using HJ Hp Hi Hd.
        intros Hy Hpp. change (SDer y [sname p]) with (der_of (SVar y) (sname p)). apply (jac_key _ _ _ _ HJ m_dict_dict); [apply m_dict_key; exact Hy|exact Hpp].
      Qed.
      Lemma refers_items_base k t : refers items k t -> base k = k /\ base t = t.
      Proof using Hkeys Hnoder.
        intros Hr. split; [apply base_key; destruct Hr as (e & Hin & _); eapply key_of; exact Hin|].
        apply Hnoder in Hr. destruct t; [reflexivity|reflexivity|discriminate].
      Qed.
      Lemma above_J : above J.
      Proof using HJ Hkeys Hp Hi Hd Hsimp Ho1 Ho2 Hv Hself Hnoder.
        pose proof (init_model_inv _ _ _ Hi) as (Hsym & _).
        split.
        - eapply jac_is_dict; exact HJ.
        - apply (jac_symbolic _ _ _ _ HJ m_dict_dict). eapply symbolic_perm; [exact m_dict_perm|exact Hsym].
        - intros k c Hin. apply (jac_keep _ _ _ _ HJ m_dict_dict). apply m_dict_in; exact Hin.
        - intros k Hk. destruct (J_key_inv k Hk) as [H0|(y & p & -> & _ & Hy)]; [auto|]. right. exists y, (sname p), []. auto.
        - intros x t Hr. destruct (jac_refers _ _ _ _ HJ m_dict_dict m_dict_nonpar v2f_nonpar x t Hr) as (x' & t' & <- & <- & Hr').
          apply m_dict_refers in Hr'. destruct (refers_items_base _ _ Hr') as [-> ->]. exact Hr'.
        - intros x t (e & Hin & Hm) Ht. destruct Hm as [Hm|(y & qs & _ & ->)]; [|discriminate].
          destruct (J_occ _ _ _ Hin Hm) as [Hr|(y & p & -> & Hpp & Hy & _)].
          + rewrite (Hnoder _ _ Hr) in Ht; discriminate.
          + apply J_der_key; assumption.
      Qed.
      Lemma J_row y p e : In (SVar y, CExpr e) items -> In p ps ->
        exists e', diff (diff_sym v2f p) e = Ok e' /\ In (SDer y [sname p], CExpr (simp e')) J.
      Proof using HJ Hkeys Hp Hi Hd Hps.
        intros Hin Hpp. assert (Hk : In (SDer y [sname p]) (dkeys J)) by (apply J_der_key; [eapply key_of; exact Hin|exact Hpp]).
        apply in_map_iff in Hk as ([k c] & Hk & HinJ). simpl in Hk; subst k.
        destruct (jac_sound _ _ _ _ HJ m_dict_dict _ _ HinJ) as [H0|(k0 & e0 & p' & e' & Hin0 & Hpp' & He & Hq & ->)].
        - exfalso. apply m_dict_in, key_of in H0. destruct (Hkeys _ H0); discriminate.
        - apply m_dict_in in Hin0. destruct (Hkeys k0) as (z & ->); [eapply key_of; exact Hin0|]. simpl in Hq. inv Hq.
          assert (p' = p). { apply Hps in Hpp. apply Hps in Hpp'. destruct p, p'; try discriminate. simpl in *. congruence. } subst p'.
          assert (CExpr (V:=V) e0 = CExpr e). { apply (In_dget _ _ _ Hd) in Hin. apply (In_dget _ _ _ Hd) in Hin0. congruence. }
          inv H0. eauto.
      Qed.

      Hypothesis HH : jac_items simp v2f ps J = Ok H.
      Lemma canon_two y n1 n2 : canon (SDer y [n1; n2]) = SDer y [n1; n2] \/ canon (SDer y [n1; n2]) = SDer y [n2; n1].
      Proof using. clear. simpl. unfold sort_by, isort. simpl. destruct (strleb n1 n2); auto. Qed.
      Lemma H_der_key y p q : In (SVar y) (dkeys items) -> In p ps -> In q ps -> In (SDer y [sname p; sname q]) (dkeys H).
      Proof using HJ HH Hp Hi Hd.
        intros Hy Hpp Hq. change (SDer y [sname p; sname q]) with (der_of (SDer y [sname p]) (sname q)).
        apply (jac_key _ _ _ _ HH (jac_is_dict _ _ _ _ HJ)); [apply J_der_key; assumption|exact Hq].
      Qed.
      Lemma H_key_inv k : In k (dkeys H) -> In k (dkeys items) \/
        (exists y p, k = SDer y [sname p] /\ In p ps /\ In (SVar y) (dkeys items)) \/
        (exists y p q, k = SDer y [sname p; sname q] /\ In p ps /\ In q ps /\ In (SVar y) (dkeys items)).
      Proof using HJ HH Hkeys Hp Hi Hd.
        intros Hk. apply in_map_iff in Hk as ([k' c] & Hk & Hin). simpl in Hk; subst k'.
        destruct (jac_sound _ _ _ _ HH (jac_is_dict _ _ _ _ HJ) _ _ Hin) as [H0|(k0 & e & p & e' & Hin0 & Hpp & _ & -> & _)].
        - apply key_of in H0. destruct (J_key_inv _ H0) as [?|?]; auto.
        - apply key_of in Hin0. destruct (J_key_inv _ Hin0) as [Hk0|(y & p' & -> & Hp' & Hy)].
          + destruct (Hkeys k0 Hk0) as (y & ->). right. left. exists y, p. auto.
          + right. right. exists y, p', p. auto.
      Qed.
      Lemma above_H : above H.
      Proof using HJ HH Hkeys Hp Hi Hd Hsimp Ho1 Ho2 Hv Hself Hnoder.
        pose proof above_J as AJ. pose proof (ab_dict _ AJ) as HdJ.
        split.
        - eapply jac_is_dict; exact HH.
        - apply (jac_symbolic _ _ _ _ HH HdJ). apply (ab_sym _ AJ).
        - intros k c Hin. apply (jac_keep _ _ _ _ HH HdJ). apply (ab_incl _ AJ); exact Hin.
        - intros k Hk. destruct (H_key_inv k Hk) as [H0|[(y & p & -> & _ & Hy)|(y & p & q & -> & _ & _ & Hy)]]; [auto| |]; right; eauto.
        - intros x t Hr. destruct (jac_refers _ _ _ _ HH HdJ (above_nonpar J AJ) v2f_nonpar x t Hr) as (x' & t' & <- & <- & Hr').
          apply (ab_refers _ AJ); exact Hr'.
        - intros x t (e & Hin & Hm) Ht. destruct Hm as [Hm|(y & qs & _ & ->)]; [|discriminate].
          assert (Hkeep : forall k, In k (dkeys J) -> In k (dkeys H)).
          { intros k Hk. apply in_map_iff in Hk as ([k' c] & Hk & Hk'). simpl in Hk; subst k'. eapply key_of. apply (jac_keep _ _ _ _ HH HdJ); exact Hk'. }
          destruct (jac_sound _ _ _ _ HH HdJ _ _ Hin) as [H0|(k0 & e0 & q & e' & Hin0 & Hq & He & -> & Hc)].
          + apply Hkeep. apply (ab_der _ AJ x); [|exact Ht]. exists e. split; [exact H0|left; exact Hm].
          + inv Hc. apply Hsimp in Hm. destruct (diff_occs _ _ _ _ He Hm) as [Hu|(u & e1 & Hu & He1 & Hu')].
            * apply Hkeep. apply (ab_der _ AJ k0); [|exact Ht]. exists e0. split; [exact Hin0|left; exact Hu].
            * apply (diff_sym_occs _ _ _ _ t) in He1 as [(f & Hf) ->]; [|exact Hu'].
              assert (Hbk : In (base u) (dkeys items)).
              { destruct (in_dec eq_dec (base u) (dkeys items)) as [|Hk]; [assumption|]. rewrite (v2f_nonkey _ Hk) in Hf; discriminate. }
              destruct (J_occ _ _ _ Hin0 Hu) as [Hr|(y & p & -> & Hpp & Hy & _)].
              -- pose proof (Hnoder _ _ Hr) as Hnd. destruct u as [y|y|y qs]; [|destruct (Hkeys _ Hbk); discriminate|discriminate].
                 apply Hkeep. simpl. apply J_der_key; assumption.
              -- simpl der_of. destruct (canon_two y (sname p) (sname q)) as [Hcc|Hcc]; simpl app; rewrite Hcc; apply H_der_key; assumption.
      Qed.
      Lemma H_keep k c : In (k, c) J -> In (k, c) H.
      Proof using HH HJ. apply (jac_keep _ _ _ _ HH (jac_is_dict _ _ _ _ HJ)). Qed.
      Lemma H_row y p q e : In (SDer y [sname p], CExpr e) J -> In q ps ->
        exists e', diff (diff_sym v2f q) e = Ok e' /\ In (SDer y [sname p; sname q], CExpr (simp e')) H.
      Proof using HJ HH Hkeys Hp Hi Hd Hps.
        intros Hin Hq. pose proof (jac_is_dict _ _ _ _ HJ) as HdJ.
        assert (Hk : In (SDer y [sname p; sname q]) (dkeys H)).
        { change (SDer y [sname p; sname q]) with (der_of (SDer y [sname p]) (sname q)). apply (jac_key _ _ _ _ HH HdJ); [eapply key_of; exact Hin|exact Hq]. }
        apply in_map_iff in Hk as ([k c] & Hk & HinH). simpl in Hk; subst k.
        destruct (jac_sound _ _ _ _ HH HdJ _ _ HinH) as [H0|(k0 & e0 & q' & e' & Hin0 & Hq' & He & Hqq & ->)].
        - exfalso. apply key_of in H0. destruct (J_key_inv _ H0) as [H1|(? & ? & H1 & _)]; [destruct (Hkeys _ H1); discriminate|discriminate].
        - assert (Hkk : k0 = SDer y [sname p] /\ q' = q).
          { pose proof (key_of _ _ _ Hin0) as Hk0. destruct (J_key_inv _ Hk0) as [H1|(y' & p' & -> & _)].
            - destruct (Hkeys _ H1) as (z & ->). discriminate.
            - simpl in Hqq. injection Hqq as H1 H2 H3. subst y'. rewrite H2. split; [reflexivity|].
              apply Hps in Hq. apply Hps in Hq'. destruct q, q'; try discriminate. simpl in *. congruence. }
          destruct Hkk as [-> ->].
          assert (CExpr (V:=V) e0 = CExpr e). { apply (In_dget _ _ _ HdJ) in Hin. apply (In_dget _ _ _ HdJ) in Hin0. congruence. }
          inv H0. eauto.
      Qed.
    End JH.
  End Model.
End JacFacts.
