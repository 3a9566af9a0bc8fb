(** * LaterMain: proofs about Later.v *)
From Coq Require Import Reals.
From Verif Require Import PyBase PyFacts Signature Expr NumPy Model Objective Minimizer Fit FitSpec FitMain Later LaterSpec.
Local Open Scope R_scope.

Lemma later_class_same h0 h1 om cons data c ob cls : (forall p, In p (om_params om) -> p_fixed (h0 p) = p_fixed (h1 p)) ->
  later_class h0 h1 om cons data c ob cls = init_class h1 om cons data c ob cls.
Proof.
  intros H. unfold later_class, init_class. apply (f_equal2 (@bind _ _)); [reflexivity|]. apply FunctionalExtensionality.functional_extensionality. intros cs. unfold minimizer_init.
  assert (E1 : filter (fun p => p_fixed (h0 p)) (om_params om) = filter (fun p => p_fixed (h1 p)) (om_params om)) by (apply filter_ext_in; exact H).
  assert (E2 : filter (fun p => negb (p_fixed (h0 p))) (om_params om) = filter (fun p => negb (p_fixed (h1 p))) (om_params om)) by (apply filter_ext_in; intros p Hp; rewrite (H p Hp); reflexivity).
  rewrite E1, E2. reflexivity.
Qed.
Lemma later_item_same toward0 h0 h1 om cons data c ob i : (forall p, In p (om_params om) -> p_fixed (h0 p) = p_fixed (h1 p)) ->
  i <> MCls BasinHopping \/ determine_minimizer toward0 h0 om cons = determine_minimizer toward0 h1 om cons ->
  later_item toward0 h0 h1 om cons data c ob i = init_item toward0 h1 om cons data c ob i.
Proof.
  intros H Hb. pose proof (fun cls => later_class_same h0 h1 om cons data c ob cls H) as E.
  destruct i as [[]|]; cbn [later_item init_item]; rewrite ?E; try reflexivity. destruct Hb as [Hb|Hb]; [congruence|rewrite Hb; reflexivity].
Qed.
Lemma choice_same toward0 h0 h1 om cons m : same_choice h0 h1 om cons m -> explicit m \/ determine_minimizer toward0 h0 om cons = determine_minimizer toward0 h1 om cons.
Proof.
  intros [H|[H|H]]; [left; exact H|right..].
  - destruct cons; [congruence|reflexivity].
  - destruct (minimizer_rule toward0 h0 om cons) as [(A & ->)|[(A & B & ->)|(A & B & ->)]], (minimizer_rule toward0 h1 om cons) as [(A' & ->)|[(A' & B' & ->)|(A' & B' & ->)]]; congruence || tauto.
Qed.
Lemma later_same toward0 h0 h1 fm cons o m absolute args kw : (forall p, In p (om_params (fm_om fm)) -> p_fixed (h0 p) = p_fixed (h1 p)) ->
  explicit m \/ determine_minimizer toward0 h0 (fm_om fm) cons = determine_minimizer toward0 h1 (fm_om fm) cons ->
  fit_later toward0 h0 h1 fm cons o m absolute args kw = fit_init toward0 h1 fm cons o m absolute args kw.
Proof.
  intros H Hm. unfold fit_later, fit_init. destruct (fit_data _ _ _ _ _ _ _) as [[c t]|]; [|reflexivity]. cbn [bind]. destruct (match o with OInst _ ob => Ok ob | _ => _ end) as [ob|]; [|reflexivity]. cbn [bind].
  assert (E : later_choice toward0 h0 h1 (fm_om fm) cons (objective_data (td_data t)) c ob m = init_choice toward0 h1 (fm_om fm) cons (objective_data (td_data t)) c ob m).
  { destruct m as [|i|l]; cbn [later_choice init_choice explicit] in *.
    - destruct Hm as [[]|Hm]. rewrite Hm. apply later_item_same; [exact H|]. right. exact Hm.
    - apply later_item_same; assumption.
    - assert (E : mapM (later_item toward0 h0 h1 (fm_om fm) cons (objective_data (td_data t)) c ob) l = mapM (init_item toward0 h1 (fm_om fm) cons (objective_data (td_data t)) c ob) l).
      { induction l as [|i l IH]; [reflexivity|]. cbn [mapM]. rewrite later_item_same; [|exact H|]. 
        - destruct (init_item _ _ _ _ _ _ _ i); [|reflexivity]. cbn [bind]. rewrite IH; [reflexivity|]. destruct Hm as [Hm|Hm]; [left; intros Hin; apply Hm; right; exact Hin|right; exact Hm].
        - destruct Hm as [Hm|Hm]; [left; intros ->; apply Hm; left; reflexivity|right; exact Hm]. }
      rewrite E. reflexivity. }
  rewrite E. reflexivity.
Qed.
Lemma later_now toward0 h fm cons o m absolute args kw : fit_later toward0 h h fm cons o m absolute args kw = fit_init toward0 h fm cons o m absolute args kw.
Proof. apply later_same; [reflexivity|right; reflexivity]. Qed.

Lemma later_fields toward0 h0 h1 fm cons o c absolute args kw f : c <> BasinHopping ->
  fit_later toward0 h0 h1 fm cons o (MItem (MCls c)) absolute args kw = Ok f ->
  exists mn, ft_min f = FMin mn None /\ mi_class mn = c /\ mi_params mn = filter (fun p => negb (p_fixed (h0 p))) (om_params (fm_om fm)) /\ mi_guess mn = None.
Proof.
  intros Hc Hf. unfold fit_later in Hf. apply bind_Ok in Hf as ([cl t] & _ & Hf). apply bind_Ok in Hf as (ob & _ & Hf). apply bind_Ok in Hf as (x & Hx & Hf). injection Hf as <-. cbn [ft_min].
  cbn [later_choice] in Hx. assert (E : later_item toward0 h0 h1 (fm_om fm) cons (objective_data (td_data t)) cl ob (MCls c) = (m <- later_class h0 h1 (fm_om fm) cons (objective_data (td_data t)) cl ob c ;; Ok (FMin m None))) by (destruct c; try reflexivity; congruence).
  rewrite E in Hx. apply bind_Ok in Hx as (mn & Hmn & Hx). exists mn. split; [congruence|]. unfold later_class in Hmn. apply bind_Ok in Hmn as (cs & _ & Hmn). unfold minimizer_init in Hmn.
  apply bind_Ok in Hmn as (ks & _ & Hmn). injection Hmn as <-. auto.
Qed.
