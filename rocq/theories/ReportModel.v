(** * ReportModel: the printed form of a model. *)
From Coq Require Import Permutation.
From Verif Require Import PyBase PyFacts Expr Model ModelSpec ModelFacts Report ReportSpec.
Local Open Scope string_scope.
Local Open Scope list_scope.

Section ModelText.
  Context {V : Type} (pr : printer) (ord : list sym -> list sym) (items : dict sym (comp (V:=V))) (m : model (V:=V)).
  Hypothesis Ho : set_order ord.
  Hypothesis Hd : is_dict items.
  Hypothesis Hm : init_model ord items = Ok m.

  Lemma part_text v e : In (v, CExpr e) (m_dict m) -> exists vs ps, model_part (V:=V) pr ord (m_conn m) (v, CExpr e) = Ok (component_text pr v vs ps e) /\
    listed_by_name (fun s => mentions e s /\ is_par s = false) vs /\ listed_by_name (fun s => mentions e s /\ is_par s = true) ps.
  Proof using Ho Hd Hm.
    intros Hin. destruct (init_model_inv ord items m Hm) as (Hs & Ed & Ec & _).
    assert (Hnd : NoDup (dkeys (sort_items items))).
    { assert (Hpk : Permutation (dkeys items) (dkeys (sort_items items))) by (apply Permutation_map; apply sort_items_perm). exact (Permutation_NoDup Hpk Hd). }
    assert (Hc : dget (m_conn m) v = Some (expr_deps ord e)).
    { rewrite Ec. apply In_dget; [unfold sym_conn, dkeys; rewrite map_map; exact Hnd|]. unfold sym_conn. apply in_map_iff. exists (v, CExpr e). split; [reflexivity|]. rewrite <- Ed. exact Hin. }
    unfold model_part. cbn [fst snd]. unfold dlook. rewrite Hc. cbn [of_opt bind pr_comp].
    eexists _, _. split; [reflexivity|].
    assert (Hn : NoDup (ord (expr_deps ord e))) by (eapply Permutation_NoDup; [symmetry; apply Ho|]; apply NoDup_expr_deps; exact Ho).
    assert (Hi : forall s, In s (ord (expr_deps ord e)) <-> mentions e s) by (intros s; rewrite in_ord by exact Ho; apply in_expr_deps; exact Ho).
    assert (Hps : forall s, In s (sort_by sname (filter is_par (ord (expr_deps ord e)))) <-> mentions e s /\ is_par s = true) by (intros s; rewrite in_sort_by, filter_In, Hi; tauto).
    split; (split; [apply NoDup_sort_by, NoDup_filter; exact Hn|]; split; [apply sort_by_sorted|]).
    - intros s. rewrite in_sort_by, filter_In, Hi. rewrite Bool.negb_true_iff, inb_false, Hps. destruct (is_par s) eqn:E.
      + split; [intros [H1 H2]; exfalso; apply H2; auto|intros [_ H]; discriminate].
      + split; [intros [H1 _]; auto|intros [H1 _]; split; [exact H1|intros [_ H]; discriminate]].
    - exact Hps.
  Qed.

  Lemma model_text : exists parts, str_model pr ord m = Ok ("[" ++ join ("," ++ nl ++ " ") (map (fun q => let '(v, vs, ps, e) := q in component_text pr v vs ps e) parts) ++ "]")%string /\
    map (fun q => let '(v, vs, ps, e) := q in (v, CExpr e)) parts = m_dict m /\
    Permutation (map (fun q => let '(v, vs, ps, e) := q in (v, CExpr e)) parts) items /\
    alphabetical sname (map (fun q => let '(v, vs, ps, e) := q in v) parts) /\
    forall v vs ps e, In (v, vs, ps, e) parts ->
      listed_by_name (fun s => mentions e s /\ is_par s = false) vs /\ listed_by_name (fun s => mentions e s /\ is_par s = true) ps.
  Proof using Ho Hd Hm.
    destruct (init_model_inv ord items m Hm) as (Hs & Ed & Ec & _).
    assert (Hall : forall l, incl l (m_dict m) -> exists parts, mapM (model_part (V:=V) pr ord (m_conn m)) l = Ok (map (fun q => let '(v, vs, ps, e) := q in component_text pr v vs ps e) parts) /\
      map (fun q => let '(v, vs, ps, e) := q in (v, CExpr e)) parts = l /\
      forall v vs ps e, In (v, vs, ps, e) parts ->
        listed_by_name (fun s => mentions e s /\ is_par s = false) vs /\ listed_by_name (fun s => mentions e s /\ is_par s = true) ps).
    { induction l as [|[v c] l IH]; intros Hincl; [exists []; split; [reflexivity|]; split; [reflexivity|intros ? ? ? ? []]|].
      destruct IH as (parts & I1 & I2 & I3); [intros y Hy; apply Hincl; right; exact Hy|].
      assert (Hin : In (v, c) (m_dict m)) by (apply Hincl; left; reflexivity).
      destruct (Hs v c) as (e & ->); [apply (Permutation_in _ (Permutation_sym (sort_items_perm items))); rewrite <- Ed; exact Hin|].
      destruct (part_text v e Hin) as (vs & ps & P1 & P2 & P3).
      exists ((v, vs, ps, e) :: parts). cbn [mapM map]. rewrite P1, I1, I2. cbn [bind]. split; [reflexivity|]. split; [reflexivity|].
      intros v' vs' ps' e' [E|Hin']; [inversion E; subst; auto|exact (I3 v' vs' ps' e' Hin')]. }
    destruct (Hall (m_dict m) (incl_refl _)) as (parts & I1 & I2 & I3). exists parts. unfold str_model. rewrite I1. cbn [bind]. split; [reflexivity|].
    split; [exact I2|]. split; [rewrite I2, Ed; symmetry; apply sort_items_perm|]. split; [|exact I3].
    replace (map (fun q => let '(v, vs, ps, e) := q in v) parts) with (dkeys (map (fun q => let '(v, vs, ps, e) := q in (v, CExpr (V:=V) e)) parts)).
    - rewrite I2, Ed. rewrite dkeys_sort_items. apply sort_by_sorted.
    - unfold dkeys. rewrite map_map. apply map_ext. intros [[[v vs] ps] e]. reflexivity.
  Qed.
End ModelText.

Lemma listed_unique (P : sym -> Prop) l l' : (forall s t, P s -> P t -> sname s = sname t -> s = t) -> listed_by_name P l -> listed_by_name P l' -> l = l'.
Proof.
  intros Hinj (N1 & A1 & I1) (N2 & A2 & I2). apply (alphabetical_unique sname); [|apply NoDup_Permutation; [exact N1|exact N2|intros s; rewrite I1, I2; reflexivity]|exact A1|exact A2].
  intros s t Hs Ht E. apply Hinj; [apply I1; exact Hs|apply I1; exact Ht|exact E].
Qed.

(** the text depends neither on the order in which the components are given nor on the order of sets *)
Lemma model_text_same {V} pr ord ord' (items items' : dict sym (comp (V:=V))) m m' : set_order ord -> set_order ord' -> is_dict items -> Permutation items items' -> distinct_names items ->
  init_model ord items = Ok m -> init_model ord' items' = Ok m' -> str_model pr ord m = str_model pr ord' m'.
Proof.
  intros Ho Ho' Hd Hp Hn Hm Hm'.
  assert (Hd' : is_dict items') by (eapply Permutation_NoDup; [|exact Hd]; apply Permutation_map; exact Hp).
  destruct (model_text pr ord items m Ho Hd Hm) as (parts & T1 & E1 & _ & _ & L1). destruct (model_text pr ord' items' m' Ho' Hd' Hm') as (parts' & T2 & E2 & _ & _ & L2).
  assert (Edm : m_dict m = m_dict m').
  { rewrite (proj1 (proj2 (init_model_inv ord items m Hm))), (proj1 (proj2 (init_model_inv ord' items' m' Hm'))). unfold sort_items. apply sort_by_perm_eq; [|exact Hp].
    intros [k c] [k' c'] H1 H2 E. cbn [fst] in E.
    assert (Ek : k = k') by (apply Hn; [left; change k with (fst (k, c)); apply in_map; exact H1|left; change k' with (fst (k', c')); apply in_map; exact H2|exact E]). subst k'.
    pose proof (In_dget items k c Hd H1) as G1. pose proof (In_dget items k c' Hd H2) as G2. congruence. }
  rewrite T1, T2. do 2 f_equal. f_equal. f_equal.
  assert (Hsym : forall v e s, In (v, CExpr e) (m_dict m) -> mentions e s -> symbol_of items s).
  { intros v e s Hin Hs. right. exists v, e. split; [|exact Hs]. rewrite (proj1 (proj2 (init_model_inv ord items m Hm))) in Hin. apply (Permutation_in _ (Permutation_sym (sort_items_perm items))). exact Hin. }
  rewrite <- Edm in E2. revert E1 E2 Hsym. generalize (m_dict m). clear T1 T2 Edm. revert parts' L2. induction parts as [|[[[v vs] ps] e] parts IH]; intros parts' L2 d E1 E2 Hsym; cbn [map] in E1; subst d.
  - destruct parts'; [reflexivity|discriminate].
  - destruct parts' as [|[[[v' vs'] ps'] e'] parts']; [discriminate|]. cbn [map] in E2. inversion E2 as [[Ev Ee Et]]. subst v' e'. cbn [map].
    destruct (L1 v vs ps e (or_introl eq_refl)) as [A1 A2]. destruct (L2 v vs' ps' e (or_introl eq_refl)) as [B1 B2].
    assert (Hi : forall s t, mentions e s -> mentions e t -> sname s = sname t -> s = t) by (intros s t Hs Ht; apply Hn; apply (Hsym v e); try assumption; left; reflexivity).
    rewrite (listed_unique _ vs vs' (fun s t Hs Ht => Hi s t (proj1 Hs) (proj1 Ht)) A1 B1), (listed_unique _ ps ps' (fun s t Hs Ht => Hi s t (proj1 Hs) (proj1 Ht)) A2 B2).
    f_equal. apply (IH (fun a b c d H => L1 a b c d (or_intror H)) parts' (fun a b c d H => L2 a b c d (or_intror H)) _ eq_refl Et).
    intros v1 e1 s H1. apply (Hsym v1 e1 s). right. exact H1.
Qed.
