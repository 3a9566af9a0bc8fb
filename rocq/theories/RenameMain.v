(** * RenameMain: a model with other names means the same. *)
From Coq Require Import Reals Lra Lia Permutation.
From Coquelicot Require Import Coquelicot.
From Verif Require Import PyBase PyFacts Expr Model ModelSpec ModelFacts ExprR Jacobian JacAnalysis NumPy NumFacts Objective ObjSpec Minimizer MinSpec Fit FitSpec Cast ArrModel ArrSpec ConModel ArrObj EndSpec EndMain Prop_Model SameSpec SameMain RenameSpec.
From Verif Require GenFit.
Local Open Scope R_scope.

Lemma new_par fv fp s : is_par (new_name fv fp s) = is_par s.
Proof. destruct s; reflexivity. Qed.
Lemma with_names_occs fv fp e : occs (with_names fv fp e) = map (new_name fv fp) (occs e).
Proof. induction e; cbn; auto; rewrite map_app; congruence. Qed.
Lemma with_names_renamed fv fp e : (forall s, mentions e s -> is_der s = false) -> renamed_expr (new_name fv fp) e (with_names fv fp e).
Proof.
  intros Hd. assert (Ho : forall s, In s (occs e) -> is_der s = false) by (intros s Hs; apply Hd; left; exact Hs). split.
  - intros t. unfold mentions at 1. rewrite with_names_occs. split.
    + intros [H|(y & ps & H & ->)]; apply in_map_iff in H as (s & E & Hs).
      * exists s. split; [left; exact Hs|auto].
      * specialize (Ho s Hs). destruct s; discriminate.
    + intros (s & Hs & ->). destruct Hs as [Hs|(y & ps & Hs & ->)]; [left; apply in_map; exact Hs|]. specialize (Ho _ Hs). discriminate Ho.
  - intros env. clear Hd Ho. induction e; cbn; congruence.
Qed.

Lemma NoDup_map_inv_in {A B} (f : A -> B) l : (forall s t, In s l -> In t l -> f s = f t -> s = t) -> NoDup l -> NoDup (map f l).
Proof.
  intros H Hn. induction Hn as [|a l Ha Hn IH]; cbn; constructor.
  - intros Hin. apply in_map_iff in Hin as (b & E & Hb). apply H in E; [subst; contradiction|right; exact Hb|left; reflexivity].
  - apply IH. intros s t Hs Ht. apply H; right; assumption.
Qed.
Lemma Forall2_in_l {A B} (P : A -> B -> Prop) l l' : Forall2 P l l' -> forall a, In a l -> exists b, In b l' /\ P a b.
Proof. induction 1 as [|x y l l' Hxy H IH]; intros a Ha; [destruct Ha|]. destruct Ha as [<-|Ha]; [exists y; split; [left; reflexivity|exact Hxy]|]. destruct (IH a Ha) as (b & Hb & Hp). exists b. split; [right; exact Hb|exact Hp]. Qed.
Lemma Forall2_in_r {A B} (P : A -> B -> Prop) l l' : Forall2 P l l' -> forall b, In b l' -> exists a, In a l /\ P a b.
Proof. induction 1 as [|x y l l' Hxy H IH]; intros b Hb; [destruct Hb|]. destruct Hb as [<-|Hb]; [exists x; split; [left; reflexivity|exact Hxy]|]. destruct (IH b Hb) as (a & Ha & Hp). exists a. split; [right; exact Ha|exact Hp]. Qed.

Section Rename.
  Context (ord1 ord1' : list sym -> list sym) (es es' : dict sym expr) (m m' : amodel) (sol sol' : (sym -> R) -> sym -> R) (us us' : list user_con) (rho : sym -> sym).
  Hypothesis (Hm : model_of ord1 es m) (Hm' : model_of ord1' es' m') (Hsol : means es sol) (Hsol' : means es' sol') (Hr : renamed_model rho es es') (Hi : good_naming rho es us)
    (Hpar : forall s, is_par (rho s) = is_par s).
  Let d : dict sym (comp (V:=res nd)) := comps es.
  Let d' : dict sym (comp (V:=res nd)) := comps es'.

  Lemma ref_iff (a b : sym) : refers d a b <-> exists e, In (a, e) es /\ mentions e b.
  Proof using. unfold d, refers, comps. split; [intros (e & H & Hb); apply in_map_iff in H as ((k, e0) & E & H); injection E as <- <-; eauto|intros (e & H & Hb); exists e; split; [apply in_map_iff; exists (a, e); auto|exact Hb]]. Qed.
  Lemma ref_iff' (a b : sym) : refers d' a b <-> exists e, In (a, e) es' /\ mentions e b.
  Proof using. unfold d', refers, comps. split; [intros (e & H & Hb); apply in_map_iff in H as ((k, e0) & E & H); injection E as <- <-; eauto|intros (e & H & Hb); exists e; split; [apply in_map_iff; exists (a, e); auto|exact Hb]]. Qed.
  Lemma key_used k : In k (dkeys es) -> used es us k.
  Proof using. intros H. left. left. rewrite dkeys_comps. exact H. Qed.
  Lemma men_used k e s : In (k, e) es -> mentions e s -> used es us s.
  Proof using. intros H Hs. left. right. exists k, e. split; [apply in_comps_R; exact H|exact Hs]. Qed.
  Lemma key_in (k : sym) e : In (k, e) es -> In k (dkeys es).
  Proof using. intros H. apply in_map_iff. exists (k, e). auto. Qed.
  Lemma key_new k' : In k' (dkeys es') <-> exists k, In k (dkeys es) /\ k' = rho k.
  Proof using Hr.
    split.
    - intros H0. destruct (key_val es' k' H0) as (e' & H). destruct (proj2 Hr k' e' H) as (k & e & Hk & -> & _). exists k. split; [eapply key_in; eauto|reflexivity].
    - intros (k & H0 & ->). destruct (key_val es k H0) as (e & H). destruct (proj1 Hr k e H) as (e' & H' & _). apply in_map_iff. exists (rho k, e'). auto.
  Qed.
  Lemma key_back s : used es us s -> In (rho s) (dkeys es') -> In s (dkeys es).
  Proof using Hr Hi. intros Hs H. apply key_new in H as (k & Hk & E). apply Hi in E; [congruence|exact Hs|apply key_used; exact Hk]. Qed.
  Lemma ref_to a b : refers d a b -> refers d' (rho a) (rho b).
  Proof using Hr. rewrite ref_iff, ref_iff'. intros (e & H & Hb). destruct (proj1 Hr a e H) as (e' & H' & (Hmn & _)). exists e'. split; [exact H'|]. apply Hmn. eauto. Qed.
  Lemma ref_back a' b' : refers d' a' b' -> exists a b, a' = rho a /\ b' = rho b /\ refers d a b.
  Proof using Hr.
    intros H. apply ref_iff' in H as (e' & H & Hb). destruct (proj2 Hr a' e' H) as (a & e & Ha & -> & (Hmn & _)). destruct (proj1 (Hmn b') Hb) as (b & Hb2 & ->). exists a, b. split; [reflexivity|]. split; [reflexivity|]. apply ref_iff. eauto.
  Qed.
  Lemma ref_used a b : refers d a b -> used es us a /\ used es us b.
  Proof using. intros H. apply ref_iff in H as (e & H & Hb). split; [apply key_used; eapply key_in; eauto|eapply men_used; eauto]. Qed.
  Lemma down_to s n : refers_down d s n -> refers_down d' (rho s) n.
  Proof using Hr Hi.
    induction 1 as [s0|s0 t n0 H Hne Hd IH]; [constructor|]. apply (down_S _ _ (rho t)); [apply ref_to; exact H| |exact IH].
    intros E. destruct (ref_used s0 t H). apply Hi in E; auto.
  Qed.
  Lemma down_back s' n : refers_down d' s' n -> forall s, used es us s -> s' = rho s -> refers_down d s n.
  Proof using Hr Hi.
    induction 1 as [s0|s0 t' n0 H Hne Hd IH]; intros s Hs Es; [constructor|]. destruct (ref_back s0 t' H) as (a & b & E & Eb & Hab). destruct (ref_used a b Hab) as (Ha & Hb). assert (Ea : s = a) by (apply Hi; congruence). subst a. subst s0 t'.
    apply (down_S _ _ b); [exact Hab|intros ->; apply Hne; reflexivity|]. apply IH; auto.
  Qed.
  Lemma isdict : is_dict d /\ is_dict d'.
  Proof using Hm Hm'. destruct Hm as (_ & H & _). destruct Hm' as (_ & H' & _). unfold d, d', is_dict. rewrite !dkeys_comps. auto. Qed.
  Lemma cls : set_order ord1 /\ init_model ord1 d = Ok m /\ set_order ord1' /\ init_model ord1' d' = Ok m'.
  Proof using Hm Hm'. destruct Hm as (H1 & _ & _ & _ & _ & _ & H2). destruct Hm' as (H3 & _ & _ & _ & _ & _ & H4). auto. Qed.
  Lemma sym_d s : symbol_of d s -> used es us s.
  Proof using. intros [H|(k & H)]; [apply key_used; unfold d in H; rewrite dkeys_comps in H; exact H|exact (proj2 (ref_used k s H))]. Qed.
  Lemma sym_to s : symbol_of d s -> symbol_of d' (rho s).
  Proof using Hr. intros [H|(k & H)]; [left; unfold d'; rewrite dkeys_comps; unfold d in H; rewrite dkeys_comps in H; apply key_new; eauto|right; exists (rho k); apply ref_to; exact H]. Qed.
  Lemma sym_back s' : symbol_of d' s' -> exists s, s' = rho s /\ symbol_of d s.
  Proof using Hr.
    intros [H|(k & H)].
    - unfold d' in H. rewrite dkeys_comps in H. apply key_new in H as (k & Hk & ->). exists k. split; [reflexivity|]. left. unfold d. rewrite dkeys_comps. exact Hk.
    - apply ref_back in H as (a & b & _ & -> & Hab). exists b. split; [reflexivity|]. right. exists a. exact Hab.
  Qed.
  Lemma dep_new v' : In v' (m_dep m') <-> exists v, In v (m_dep m) /\ v' = rho v.
  Proof using Hm Hm' Hr Hi.
    destruct cls as (H1 & H2 & H3 & H4). destruct isdict as (D1 & D2).
    pose proof (proj1 (C04_dependent_by_depth _ ord1 d m H1 D1 H2)) as C. pose proof (proj1 (C04_dependent_by_depth _ ord1' d' m' H3 D2 H4)) as C'.
    split.
    - intros H. apply C' in H as (n & Hn & Hd & Hmx). assert (Hx : exists v, v' = rho v /\ used es us v).
      { inversion Hd as [|a t k Hat _ _]; subst; [lia|]. apply ref_back in Hat as (a & b & -> & _ & Hab). exists a. split; [reflexivity|]. exact (proj1 (ref_used a b Hab)). }
      destruct Hx as (v & -> & Hv). exists v. split; [|reflexivity]. apply C. exists n. split; [exact Hn|]. split; [apply (down_back _ _ Hd); auto|]. intros t k Ht. apply (Hmx (rho t)), down_to, Ht.
    - intros (v & H & ->). apply C in H as (n & Hn & Hd & Hmx). apply C'. exists n. split; [exact Hn|]. split; [apply down_to; exact Hd|]. intros t k Ht.
      destruct k as [|k]; [lia|]. inversion Ht as [|a t' k' Hat]; subst. pose proof Hat as Hat2. apply ref_back in Hat2 as (a & b & -> & _ & Hab). apply (Hmx a). apply (down_back _ _ Ht); [exact (proj1 (ref_used a b Hab))|reflexivity].
  Qed.
  Lemma par_new p' : In p' (m_params m') <-> exists p, In p (m_params m) /\ p' = rho p.
  Proof using Hm Hm' Hr Hi Hpar.
    destruct cls as (H1 & H2 & H3 & H4). destruct isdict as (D1 & D2).
    pose proof (proj1 (proj2 (C03_classification _ ord1 d m H1 D1 H2))) as C. pose proof (proj1 (proj2 (C03_classification _ ord1' d' m' H3 D2 H4))) as C'.
    split.
    - intros H. apply C' in H as (Hs & Hp & Hl). apply sym_back in Hs as (p & -> & Hs). exists p. split; [|reflexivity]. apply C. split; [exact Hs|]. rewrite Hpar in Hp. split; [exact Hp|].
      intros t Ht. destruct (ref_used p t Ht) as (Hup & Hut). apply Hi; auto. apply Hl. apply ref_to. exact Ht.
    - intros (p & H & ->). apply C in H as (Hs & Hp & Hl). apply C'. split; [apply sym_to; exact Hs|]. rewrite Hpar. split; [exact Hp|]. intros t' Ht. apply ref_back in Ht as (a & b & E & -> & Hab).
      destruct (ref_used a b Hab) as (Ha & _). apply Hi in E; [|apply sym_d; exact Hs|exact Ha]. subst a. rewrite (Hl b Hab). reflexivity.
  Qed.
  Lemma dep_used v : In v (m_dep m) -> used es us v /\ is_par v = false /\ In v (dkeys es).
  Proof using Hm.
    intros H. assert (Hk : In v (dkeys es)) by (rewrite <- (dkeys_comps (V:=res nd)); exact (ArrObj.dep_key ord1 es m m (ArrObj.built_self ord1 es m Hm) v H)).
    split; [apply key_used; exact Hk|]. split; [|exact Hk]. destruct Hm as (_ & _ & _ & _ & (Hpl & _) & _). destruct (Hpl v ltac:(rewrite dkeys_comps; exact Hk)) as (n & ->). reflexivity.
  Qed.
  Lemma par_used p : In p (m_params m) -> used es us p /\ is_par p = true.
  Proof using Hm Hm'.
    intros H. destruct cls as (H1 & H2 & _). destruct isdict as (D1 & _). apply (proj1 (proj2 (C03_classification _ ord1 d m H1 D1 H2))) in H as (Hs & Hp & _). split; [apply sym_d; exact Hs|exact Hp].
  Qed.
  Lemma dep_perm : Permutation (m_dep m') (map rho (m_dep m)).
  Proof using Hm Hm' Hr Hi.
    destruct cls as (H1 & H2 & H3 & H4). destruct isdict as (D1 & D2).
    pose proof (C03_classification _ ord1 d m H1 D1 H2) as C. pose proof (C03_classification _ ord1' d' m' H3 D2 H4) as C'.
    apply NoDup_Permutation; [apply C'| |].
    - assert (Hnd : NoDup (m_dep m)) by apply C. apply NoDup_map_inv_in; [|exact Hnd]. intros s t Hs Ht. apply Hi; apply dep_used; assumption.
    - intros v'. rewrite dep_new, in_map_iff. split; intros (v & A & B); exists v; auto.
  Qed.
  (** The solution *)
  Lemma sol_new inp inp' : (forall s, used es us s -> ~ In s (dkeys es) -> inp' (rho s) = inp s) -> forall s, used es us s -> sol' inp' (rho s) = sol inp s.
  Proof using Hm Hsol Hsol' Hr Hi.
    intros Hin s Hs. set (w := fun s => if in_dec eq_dec s (dkeys es) then sol' inp' (rho s) else inp s).
    destruct (Hsol' inp') as (F1 & F2). assert (F2' : forall t, used es us t -> ~ In t (dkeys es) -> sol' inp' (rho t) = inp t).
    { intros t Ht Hk. rewrite F2; [apply Hin; assumption|]. rewrite dkeys_comps. intros H. apply Hk, key_back; assumption. }
    assert (Hw : solution Ralg (comps es) inp w).
    { split.
      - intros k e H. apply in_comps_R in H. pose proof (key_in k e H) as Hk. unfold w at 1. destruct (in_dec eq_dec k (dkeys es)); [|contradiction]. destruct (proj1 Hr k e H) as (e' & H' & (_ & Hev)).
        rewrite (F1 (rho k) e') by (apply in_comps_R; exact H'). rewrite Hev. apply eval_ext. intros t Ht. unfold w. destruct (in_dec eq_dec t (dkeys es)) as [|Hn]; [reflexivity|].
        apply F2'; [apply (men_used k e); [exact H|apply occs_mentions; exact Ht]|exact Hn].
      - intros t Ht. rewrite dkeys_comps in Ht. unfold w. destruct (in_dec eq_dec t (dkeys es)); [contradiction|reflexivity]. }
    rewrite (means_unique ord1 es m sol inp w Hm Hsol Hw s). unfold w. destruct (in_dec eq_dec s (dkeys es)); [reflexivity|]. apply F2'; assumption.
  Qed.
  Lemma eval_new e e' env env' : renamed_expr rho e e' -> (forall s, mentions e s -> env' (rho s) = env s) -> eval Ralg env' e' = eval Ralg env e.
  Proof using. intros (_ & Hev) H. rewrite Hev. apply eval_ext. intros s Hs. apply H, occs_mentions, Hs. Qed.

  Context (G : list nat) (Y Sg Y' Sg' : sym -> option nd) (h h' : heap).
  Hypothesis (HG : data_on_grid G m Y Sg) (HD : renamed_data rho es us Y Sg Y' Sg') (Hh : renamed_parameters rho (m_params m) h h')
    (Hup : forall s, used es us s -> is_par s = true -> In s (m_params m)) (Hus : Forall2 (renamed_con rho) us us').
  Lemma point_new theta theta' i : (forall p, In p (m_params m) -> theta' (rho p) = theta p) -> forall s, used es us s -> sol' (at_data Y' theta' i) (rho s) = sol (at_data Y theta i) s.
  Proof using Hm Hsol Hsol' Hr Hi Hpar HD Hup.
    intros Ht. apply sol_new. intros s Hs _. unfold at_data. rewrite Hpar. destruct (is_par s) eqn:E; [apply Ht, Hup; assumption|]. rewrite (proj1 (HD s Hs E)). reflexivity.
  Qed.
  Lemma chi2_new theta theta' : (forall p, In p (m_params m) -> theta' (rho p) = theta p) -> chi2_for sol' m' Y' Sg' theta' = chi2_for sol m Y Sg theta.
  Proof using Hm Hm' Hsol Hsol' Hr Hi Hpar HD Hup.
    intros Ht. unfold chi2_for. rewrite (NumFacts.Rsum_perm _ _ (Permutation_map _ dep_perm)), map_map. apply Rsum_ext. intros v Hv. destruct (dep_used v Hv) as (Hu & Hp & _).
    destruct (HD v Hu Hp) as (-> & ->). destruct (Y v); [|reflexivity]. destruct (Sg v); [|reflexivity]. apply Rsum_ext. intros i _. rewrite (point_new theta theta' i Ht v Hu). reflexivity.
  Qed.
  Lemma con_new u u' theta theta' i : In u us -> renamed_con rho u u' -> (forall p, In p (m_params m) -> theta' (rho p) = theta p) ->
    (holds (uc_rel u') (eval Ralg (sol' (at_data Y' theta' i)) (uc_left u')) (eval Ralg (sol' (at_data Y' theta' i)) (uc_right u')) <->
     holds (uc_rel u) (eval Ralg (sol (at_data Y theta i)) (uc_left u)) (eval Ralg (sol (at_data Y theta i)) (uc_right u))).
  Proof using Hm Hsol Hsol' Hr Hi Hpar HD Hup.
    intros Hu (-> & HL & HR) Ht.
    rewrite (eval_new _ _ (sol (at_data Y theta i)) _ HL), (eval_new _ _ (sol (at_data Y theta i)) _ HR); [reflexivity| |]; intros s Hs; apply (point_new theta theta' i Ht); right; exists u; auto.
  Qed.
  Lemma constraints_new theta theta' : (forall p, In p (m_params m) -> theta' (rho p) = theta p) -> constraints_hold G sol' us' Y' theta' <-> constraints_hold G sol us Y theta.
  Proof using Hm Hsol Hsol' Hr Hi Hpar HD Hup Hus.
    intros Ht. split.
    - intros H u i Hu Hi'. destruct (Forall2_in_l _ _ _ Hus u Hu) as (u' & Hu' & Hren). apply (con_new u u' theta theta' i Hu Hren Ht). apply H; assumption.
    - intros H u' i Hu' Hi'. destruct (Forall2_in_r _ _ _ Hus u' Hu') as (u & Hu & Hren). apply (con_new u u' theta theta' i Hu Hren Ht). apply H; assumption.
  Qed.
  Lemma allowed_new theta theta' : (forall p, In p (m_params m) -> theta' (rho p) = theta p) -> allowed h' m' theta' <-> allowed h m theta.
  Proof using Hm Hm' Hr Hi Hpar Hh.
    intros Ht. unfold allowed, within. split.
    - intros H p Hp. assert (Hp' : In (rho p) (m_params m')) by (apply par_new; eauto). specialize (H _ Hp'). rewrite (Hh p Hp), (Ht p Hp) in H. exact H.
    - intros H p' Hp'. apply par_new in Hp' as (p & Hp & ->). rewrite (Hh p Hp), (Ht p Hp). exact (H p Hp).
  Qed.
  (** Vectors *)
  Lemma free_new p' : In p' (free_of_list h' (m_params m')) <-> exists p, In p (free_of_list h (m_params m)) /\ p' = rho p.
  Proof using Hm Hm' Hr Hi Hpar Hh.
    unfold free_of_list. rewrite filter_In, par_new. split.
    - intros ((p & Hp & ->) & Hf). rewrite (Hh p Hp) in Hf. exists p. split; [apply filter_In; auto|reflexivity].
    - intros (p & Hp & ->). apply filter_In in Hp as (Hp & Hf). split; [eauto|]. rewrite (Hh p Hp). exact Hf.
  Qed.
  Lemma nodup_params : NoDup (m_params m) /\ NoDup (m_params m').
  Proof using Hm Hm'. destruct cls as (H1 & H2 & H3 & H4). destruct isdict as (D1 & D2). split; [apply (C03_classification _ ord1 d m H1 D1 H2)|apply (C03_classification _ ord1' d' m' H3 D2 H4)]. Qed.
  Lemma free_perm : Permutation (free_of_list h' (m_params m')) (map rho (free_of_list h (m_params m))).
  Proof using Hm Hm' Hr Hi Hpar Hh.
    destruct nodup_params as (N1 & N2). apply NoDup_Permutation; [apply NoDup_filter; exact N2| |].
    - apply NoDup_map_inv_in; [|apply NoDup_filter; exact N1]. intros s t Hs Ht. apply filter_In in Hs as (Hs & _), Ht as (Ht & _). apply Hi; apply par_used; assumption.
    - intros v'. rewrite free_new, in_map_iff. split; intros (v & A & B); exists v; auto.
  Qed.
  Lemma nfree_new : nfree h' (m_params m') = nfree h (m_params m).
  Proof using Hm Hm' Hr Hi Hpar Hh. unfold nfree. rewrite (Permutation_length free_perm). apply map_length. Qed.
  (** every vector has a namesake *)
  Lemma namesake x : List.length x = nfree h (m_params m) -> exists x', List.length x' = nfree h' (m_params m') /\ same_values rho h h' (m_params m) (m_params m') x x'.
  Proof using Hm Hm' Hr Hi Hpar Hh.
    intros Hx. destruct nodup_params as (N1 & N2).
    set (inv := fun p' => match find (fun p => if eq_dec (rho p) p' then true else false) (m_params m) with Some p => p | None => p' end).
    assert (Hinv : forall p, In p (m_params m) -> inv (rho p) = p).
    { intros p Hp. unfold inv. destruct (find _ (m_params m)) as [q|] eqn:E.
      - apply find_some in E as (Hq & E). destruct (eq_dec (rho q) (rho p)) as [E'|]; [|discriminate]. apply Hi in E'; [exact E'|apply par_used; exact Hq|apply par_used; exact Hp].
      - pose proof (find_none _ _ E p Hp) as A. cbn in A. destruct (eq_dec (rho p) (rho p)); congruence. }
    exists (map (fun p' => parameter_value h (m_params m) x (inv p')) (free_of_list h' (m_params m'))). split; [apply map_length|].
    intros p Hp. destruct (p_fixed (h p)) eqn:E.
    - unfold parameter_value. rewrite (Hh p Hp), E. reflexivity.
    - assert (Hf : In (rho p) (free_of_list h' (m_params m'))) by (apply free_new; exists p; split; [apply filter_In; rewrite E; auto|reflexivity]).
      apply In_nth_error in Hf as (i & Hni).
      set (xs := map (fun p' => parameter_value h (m_params m) x (inv p')) (free_of_list h' (m_params m'))).
      assert (Hl : (i < List.length xs)%nat) by (unfold xs; rewrite map_length; apply nth_error_Some; rewrite Hni; discriminate).
      rewrite (GenFit.gpv_at h' (m_params m') N2 xs (rho p) i Hni Hl).
      transitivity (parameter_value h (m_params m) x (inv (rho p))); [apply nth_error_nth; unfold xs; apply (map_nth_error (fun p' => parameter_value h (m_params m) x (inv p'))); exact Hni|rewrite (Hinv p Hp); reflexivity].
  Qed.
End Rename.
