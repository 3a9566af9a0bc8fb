(** * ObjFacts: proofs about Objective.v: what the model is called with. *)
From Coq Require Import Reals Lra.
From Coquelicot Require Import Coquelicot.
From Verif Require Import PyBase PyFacts Expr NumPy NumFacts Objective ObjSpec.
Local Open Scope R_scope.

Section Lget.
  Context {X : Type}.
  Fixpoint lget (d : dict kwkey X) (n : string) : option X :=
    match d with
    | [] => None
    | (k, v) :: d' => match lget d' n with Some w => Some w | None => if eq_dec n (kwstr k) then Some v else None end
    end.
  Lemma lget_app d e n : lget (d ++ e) n = match lget e n with Some w => Some w | None => lget d n end.
  Proof.
    induction d as [|[k v] d IH]; simpl; [destruct (lget e n); reflexivity|]. rewrite IH.
    destruct (lget e n); reflexivity.
  Qed.
  Lemma dget_key2str d n : dget (key2str d) n = lget d n.
  Proof.
    unfold key2str, dict_of. rewrite dget_dupdate. simpl.
    transitivity (dget (rev (map (fun kv => (kwstr (fst kv), snd kv)) d)) n); [destruct (dget _ n); reflexivity|].
    induction d as [|[k v] d IH]; simpl; [reflexivity|]. rewrite dget_app, IH. simpl.
    destruct (lget d n); [reflexivity|]. destruct (eq_dec n (kwstr k)); reflexivity.
  Qed.
  Lemma lget_None d n : (forall k, In k (dkeys d) -> kwstr k <> n) -> lget d n = None.
  Proof.
    induction d as [|[k v] d IH]; simpl; intros H; [reflexivity|]. rewrite IH by auto.
    destruct (eq_dec n (kwstr k)) as [->|]; [exfalso; apply (H k); auto|reflexivity].
  Qed.
  Lemma lget_dset_str d m a n : NoDup (dkeys d) -> (forall s, In (KSym s) (dkeys d) -> sname s <> m) ->
    lget (dset d (KStr m) a) n = if eq_dec n m then Some a else lget d n.
  Proof.
    induction d as [|[k v] d IH]; simpl; intros Hnd H.
    - destruct (eq_dec n m); reflexivity.
    - inv Hnd. destruct (eq_dec (KStr m) k) as [<-|Hne].
      + simpl. destruct (eq_dec n m) as [->|Hn]; [|reflexivity].
        rewrite lget_None; [reflexivity|]. intros [k|k] Hk; simpl; [|apply H; auto]. intros ->. contradiction.
      + simpl. rewrite IH by auto. destruct (eq_dec n m); reflexivity.
  Qed.
  Lemma lget_dupdate_str (e : list (string * X)) : forall d n, NoDup (dkeys d) -> NoDup (dkeys e) ->
    (forall s, In (KSym s) (dkeys d) -> ~ In (sname s) (dkeys e)) ->
    lget (dupdate d (map (fun kv => (KStr (fst kv), snd kv)) e)) n = match dget e n with Some a => Some a | None => lget d n end.
  Proof.
    induction e as [|[m a] e IH]; intros d n Hd He H; simpl; [reflexivity|]. inv He.
    unfold dupdate in *. simpl. rewrite IH; [|apply NoDup_dset; exact Hd|assumption|].
    - rewrite lget_dset_str; [|exact Hd|intros s Hs Hq; apply (H s Hs); left; auto].
      destruct (eq_dec n m) as [->|Hn]; [|reflexivity].
      destruct (dget e m) eqn:E; [|reflexivity]. exfalso. apply dget_Some_key in E. contradiction.
    - intros s Hs Hq. apply in_dkeys_dset in Hs as [Hs|Hs]; [discriminate|]. apply (H s Hs). right; exact Hq.
  Qed.
  Lemma lget_syms (f : sym -> X) ss n : NoDup (map sname ss) ->
    lget (map (fun p => (KSym p, f p)) ss) n = option_map f (find (fun p => eqb (sname p) n) ss).
  Proof.
    induction ss as [|s ss IH]; simpl; intros Hnd; [reflexivity|]. inv Hnd. rewrite IH by assumption.
    unfold eqb at 2. destruct (eq_dec (sname s) n) as [<-|Hn].
    - destruct (eq_dec (sname s) (sname s)); [|congruence].
      destruct (find _ ss) as [t|] eqn:E; [|reflexivity]. exfalso. apply find_some in E as [Hin He].
      apply (proj1 (eqb_true _ _)) in He. apply H1. rewrite <- He. apply in_map; exact Hin.
    - destruct (find _ ss); [reflexivity|]. simpl. destruct (eq_dec n (sname s)); congruence.
  Qed.
  Lemma lget_strs (e : list (string * X)) n : NoDup (dkeys e) -> lget (map (fun kv => (KStr (fst kv), snd kv)) e) n = dget e n.
  Proof.
    induction e as [|[m a] e IH]; simpl; intros Hnd; [reflexivity|]. inv Hnd. rewrite IH by assumption.
    destruct (eq_dec n m) as [->|]; [|destruct (dget e n); reflexivity].
    destruct (dget e m) eqn:E; [exfalso; apply dget_Some_key in E; contradiction|reflexivity].
  Qed.
  Lemma lget_zip (xs : list X) : forall ss n, NoDup (map sname ss) ->
    lget (combine (map KSym ss) xs) n = dget (combine (map sname ss) xs) n.
  Proof.
    induction xs as [|x xs IH]; intros [|s ss] n Hnd; simpl; try reflexivity. inv Hnd. rewrite IH by assumption.
    destruct (eq_dec n (sname s)) as [->|]; [|destruct (dget _ n); reflexivity].
    destruct (dget _ (sname s)) eqn:E; [|reflexivity]. exfalso. apply H1. apply dget_In in E. apply in_combine_l in E. exact E.
  Qed.
End Lget.

Lemma in_combine_keys {K V} (ks : list K) (vs : list V) k : In k (map fst (combine ks vs)) -> In k ks.
Proof. intros H. apply in_map_iff in H as ([a b] & <- & H). apply in_combine_l in H. exact H. Qed.
Lemma NoDup_combine_keys {K V} (ks : list K) : forall (vs : list V), NoDup ks -> NoDup (map fst (combine ks vs)).
Proof.
  induction ks as [|k ks IH]; intros [|v vs] H; simpl; try constructor; inv H; [|apply IH; assumption].
  intros Hk. apply in_combine_keys in Hk. contradiction.
Qed.
Lemma NoDup_app_intro {A} (l m : list A) : NoDup l -> NoDup m -> (forall x, In x l -> ~ In x m) -> NoDup (l ++ m).
Proof.
  induction l as [|x l IH]; simpl; intros H1 H2 H3; [exact H2|]. inv H1. constructor; [|apply IH; auto].
  intros Hx. apply in_app_or in Hx as [Hx|Hx]; [contradiction|]. apply (H3 x); auto.
Qed.
Lemma NoDup_map_of {A B} (f : A -> B) l : NoDup (map f l) -> NoDup l.
Proof. apply NoDup_map_inv. Qed.
Lemma NoDup_map_filter {A B} (f : A -> B) (g : A -> bool) l : NoDup (map f l) -> NoDup (map f (filter g l)).
Proof.
  induction l as [|a l IH]; simpl; intros H; [constructor|]. inv H. destruct (g a); simpl; [constructor|]; auto.
  intros Hi. apply H2. apply in_map_iff in Hi as (b & He & Hb). apply filter_In in Hb as [Hb _]. rewrite <- He. apply in_map; exact Hb.
Qed.
Lemma find_filter {A} (f g : A -> bool) l : find f (filter g l) = find (fun a => f a && g a) l.
Proof. induction l as [|a l IH]; simpl; [reflexivity|]. destruct (g a); simpl; rewrite IH; destruct (f a); reflexivity. Qed.

(** *** what is stored on creation *)
Lemma obj_init_inv b om data ob : obj_init b om data = Ok ob ->
  ob_data ob = data /\ ob_inv ob = None /\
  ob_ind ob = dict_of (map (fun v => (v, match dget data v with Some x => x | None => None end)) (om_indep om)) /\
  (forall v, In v (om_indep om) -> In v (dkeys data)) /\
  (if b then ob_dep ob = [] /\ ob_sig ob = [] else
   ob_dep ob = dict_of (map (fun v => (v, match dget data v with Some x => x | None => None end)) (om_dep om)) /\
   ob_sig ob = dict_of (map (fun v => (sigma_of v, match dget data (sigma_of v) with Some x => x | None => None end)) (om_dep om)) /\
   (forall v, In v (om_dep om) -> In v (dkeys data) /\ In (sigma_of v) (dkeys data))).
Proof.
  assert (Hm : forall (g : sym -> sym) l r, mapM (fun v => x <- dlook data (g v) ;; Ok (g v, x)) l = Ok r ->
            r = map (fun v => (g v, match dget data (g v) with Some x => x | None => None end)) l /\ forall v, In v l -> In (g v) (dkeys data)).
  { intros g l r Hr. apply mapM_Ok in Hr. induction Hr as [|v y l r Hy _ IH]; simpl; [split; [reflexivity|tauto]|].
    apply bind_Ok in Hy as (x & Hx & Hy). inv Hy. unfold dlook in Hx. destruct (dget data (g v)) eqn:E; [|discriminate]. simpl in Hx. inv Hx.
    destruct IH as [-> IH]. split; [reflexivity|]. intros w [<-|Hw]; [eapply dget_Some_key; exact E|auto]. }
  unfold obj_init. intros H. apply bind_Ok in H as (dep & Hdep & H). apply bind_Ok in H as (ind & Hind & H). apply bind_Ok in H as (sg & Hsg & H). inv H. simpl.
  apply (Hm (fun v => v)) in Hind as [-> Hind].
  split; [reflexivity|]. split; [reflexivity|]. split; [reflexivity|]. split; [exact Hind|].
  destruct b.
  - inv Hdep. inv Hsg. split; reflexivity.
  - apply (Hm (fun v => v)) in Hdep as [-> Hdep]. apply (Hm sigma_of) in Hsg as [-> Hsg]. split; [reflexivity|]. split; [reflexivity|]. intros v Hv; split; auto.
Qed.

Section Seen.
  Context (h : heap) (om : omodel) (data : dict sym (option nd)) (b : bool) (ob : obj).
  Hypothesis Hint : interface om.
  Hypothesis Hob : obj_init b om data = Ok ob.

  Lemma indep_names : NoDup (map sname (om_indep om)).
  Proof using Hint. destruct Hint as (_ & H & _). rewrite map_app in H. apply NoDup_app_split in H. tauto. Qed.
  Lemma params_names : NoDup (map sname (om_params om)).
  Proof using Hint. destruct Hint as (_ & H & _). rewrite map_app in H. apply NoDup_app_split in H. tauto. Qed.
  Lemma names_disjoint v p : In v (om_indep om) -> In p (om_params om) -> sname v <> sname p.
  Proof using Hint.
    destruct Hint as (_ & H & _). rewrite map_app in H. apply NoDup_app_split in H as (_ & _ & H). intros Hv Hp He.
    apply (H (sname v)); [apply in_map; exact Hv|rewrite He; apply in_map; exact Hp].
  Qed.
  Lemma fixed_filter : filter (fun p => negb (inb p (free_params h om))) (om_params om) = filter (fun p => p_fixed (h p)) (om_params om).
  Proof using.
    apply filter_ext_in. intros p Hp. unfold free_params. destruct (p_fixed (h p)) eqn:E.
    - apply negb_true_iff. apply inb_false. intros H. apply filter_In in H as [_ H]. rewrite E in H. discriminate.
    - apply negb_false_iff. apply inb_In. apply filter_In. rewrite E. auto.
  Qed.

  (** the data part of the invariant keyword arguments *)
  Lemma compute_inv_ok inv : compute_inv h om ob = Ok inv ->
    exists dat : dict string nd,
      dkeys dat = map sname (om_indep om) /\
      (forall v, In v (om_indep om) -> exists a, dget data v = Some (Some a) /\ dget dat (sname v) = Some a) /\
      inv = map (fun p => (KSym p, scalar (p_value (h p)))) (filter (fun p => p_fixed (h p)) (om_params om)) ++
            map (fun kv => (KStr (fst kv), snd kv)) dat.
  Proof using Hint Hob.
    destruct (obj_init_inv _ _ _ _ Hob) as (_ & _ & Hind & Hkeys & _).
    unfold compute_inv. rewrite fixed_filter. intros H. apply bind_Ok in H as (dat0 & Hdat & H).
    assert (Hdi : ob_ind ob = map (fun v => (v, match dget data v with Some x => x | None => None end)) (om_indep om)).
    { rewrite Hind. apply dict_of_nodup. rewrite map_map. simpl. rewrite map_id. apply NoDup_map_of with (f := sname). exact indep_names. }
    rewrite Hdi in Hdat. rewrite map_map in Hdat. simpl in Hdat.
    rewrite dict_of_nodup in Hdat by (rewrite map_map; simpl; exact indep_names).
    destruct Hint as (Hn & Hnd & _).
    assert (Hf : filter (dmem (map (fun v => (sname v, match dget data v with Some x => x | None => None end)) (om_indep om))) (om_names om) = map sname (om_indep om)).
    { rewrite Hn, map_app, filter_app. rewrite map_app in Hnd. apply NoDup_app_split in Hnd as (_ & _ & Hdis).
      match goal with |- ?a ++ ?c = _ => assert (Ha : a = map sname (om_indep om)); [|assert (Hc : c = [])] end.
      - apply filter_true. intros n Hin. apply dmem_keys. unfold dkeys. rewrite map_map. exact Hin.
      - match goal with |- filter ?f ?l = [] => assert (Hall : forall x, In x l -> f x = false) end.
        { intros n Hin. apply dmem_false. unfold dkeys. rewrite map_map. simpl. intros Hi. apply (Hdis n Hi Hin). }
        revert Hall. generalize (map sname (om_params om)). induction l as [|x l IH]; simpl; intros Hall; [reflexivity|]. rewrite Hall by auto. apply IH. auto.
      - rewrite Ha, Hc, app_nil_r. reflexivity. }
    rewrite Hf in Hdat. clear Hf.
    assert (Hvals : exists dat, dat0 = map (fun kv => (KStr (fst kv), snd kv)) dat /\ dkeys dat = map sname (om_indep om) /\
              forall v, In v (om_indep om) -> exists a, dget data v = Some (Some a) /\ dget dat (sname v) = Some a).
    { apply mapM_Ok in Hdat.
      assert (Hlook : forall v, In v (om_indep om) -> dget (map (fun v => (sname v, match dget data v with Some x => x | None => None end)) (om_indep om)) (sname v) = Some (match dget data v with Some x => x | None => None end)).
      { intros v Hv. apply In_dget; [unfold dkeys; rewrite map_map; exact indep_names|]. apply in_map_iff. exists v. auto. }
      revert Hdat Hlook. pose proof indep_names as Hin. revert Hin.
      generalize (map (fun v => (sname v, match dget data v with Some x => x | None => None end)) (om_indep om)) as D. generalize (om_indep om) as vs. clear.
      intros vs D Hin HF. remember (map sname vs) as ns eqn:E. revert vs Hin E. induction HF as [|n k ns dat0 Hk HF IH]; intros vs Hin E Hlook.
      - exists []. destruct vs; [|discriminate]. split; [reflexivity|]. split; [reflexivity|]. intros v [].
      - destruct vs as [|v vs]; [discriminate|]. inv E. simpl in Hin. inv Hin.
        rewrite (Hlook v) in Hk by (left; reflexivity).
        destruct (dget data v) as [[a|]|] eqn:Ev; try discriminate. inv Hk.
        destruct (IH vs H2 eq_refl) as (dat & -> & Hkd & Hd); [intros w Hw; apply Hlook; right; exact Hw|].
        exists ((sname v, a) :: dat). split; [reflexivity|]. split; [simpl; rewrite <- Hkd; reflexivity|].
        intros w [<-|Hw].
        + exists a. split; [exact Ev|]. simpl. destruct (eq_dec (sname v) (sname v)); congruence.
        + destruct (Hd w Hw) as (a' & H1' & H2'). exists a'. split; [exact H1'|]. simpl.
          destruct (eq_dec (sname w) (sname v)) as [He|]; [exfalso; apply H1; rewrite <- He; apply in_map; exact Hw|exact H2']. }
    destruct Hvals as (dat & -> & Hkd & Hd). exists dat. split; [exact Hkd|]. split; [exact Hd|].
    inv H. rewrite dict_of_nodup.
    2:{ rewrite map_map. simpl. apply FinFun.Injective_map_NoDup; [intros x y Hq; congruence|]. apply NoDup_filter. apply NoDup_map_of with (f := sname). exact params_names. }
    assert (HN : NoDup (dkeys dat)) by (rewrite Hkd; exact indep_names).
    rewrite dict_of_nodup.
    2:{ rewrite map_map. simpl. change (fun x : string * nd => KStr (fst x)) with (fun x : string * nd => KStr (fst x)). rewrite <- (map_map fst KStr). apply FinFun.Injective_map_NoDup; [intros x y Hq; congruence|exact HN]. }
    apply dupdate_app_nodup. unfold dkeys. rewrite !map_map. simpl.
    apply NoDup_app_intro.
    - apply FinFun.Injective_map_NoDup; [intros x y Hq; congruence|]. apply NoDup_filter. apply NoDup_map_of with (f := sname). exact params_names.
    - rewrite <- (map_map fst KStr). apply FinFun.Injective_map_NoDup; [intros x y Hq; congruence|exact HN].
    - intros x Hx Hy. apply in_map_iff in Hx as (p & <- & _). apply in_map_iff in Hy as (q & Hq & _). discriminate.
  Qed.

  Lemma prepare_seen inv xs kw : compute_inv h om ob = Ok inv -> NoDup (dkeys kw) ->
    arguments_are (prepare h om inv xs kw) (seen h om data xs kw).
  Proof using Hint Hob.
    intros Hinv Hkw. split; [unfold prepare, key2str, dict_of; apply NoDup_dupdate; constructor|].
    intros n. destruct (compute_inv_ok _ Hinv) as (dat & Hkd & Hd & ->).
    unfold prepare. rewrite dget_key2str.
    set (P := map (fun kv => (KStr (fst kv), scalar (snd kv))) kw).
    set (free := free_params h om).
    assert (Hfree : NoDup (map sname free)) by (apply NoDup_map_filter; exact params_names).
    assert (Hfree' : NoDup (map KSym free)) by (apply FinFun.Injective_map_NoDup; [intros x y Hq; congruence|apply NoDup_map_of with (f := sname); exact Hfree]).
    rewrite (dict_of_nodup (combine (map KSym free) (map scalar xs))) by (apply NoDup_combine_keys; exact Hfree').
    set (Q := combine (map KSym free) (map scalar xs)).
    set (F := map (fun p => (KSym p, scalar (p_value (h p)))) (filter (fun p => p_fixed (h p)) (om_params om))).
    assert (HP : NoDup (dkeys P)).
    { unfold P, dkeys. rewrite map_map. simpl. rewrite <- (map_map fst KStr). apply FinFun.Injective_map_NoDup; [intros x y Hq; congruence|exact Hkw]. }
    assert (HPs : forall s, ~ In (KSym s) (dkeys P)).
    { intros s Hs. unfold P, dkeys in Hs. rewrite map_map in Hs. apply in_map_iff in Hs as (x & Hx & _). discriminate. }
    assert (HQk : forall k, In k (dkeys Q) -> exists p, k = KSym p /\ In p (om_params om) /\ p_fixed (h p) = false).
    { intros k Hk. apply in_combine_keys in Hk. apply in_map_iff in Hk as (p & <- & Hp). exists p. unfold free, free_params in Hp.
      apply filter_In in Hp as [Hp Hf]. apply negb_true_iff in Hf. auto. }
    assert (HFk : forall k, In k (dkeys F) -> exists p, k = KSym p /\ In p (om_params om) /\ p_fixed (h p) = true).
    { intros k Hk. unfold F, dkeys in Hk. rewrite map_map in Hk. apply in_map_iff in Hk as (p & <- & Hp). apply filter_In in Hp. simpl. eauto. }
    assert (HQ : NoDup (dkeys Q)) by (apply NoDup_combine_keys; exact Hfree').
    assert (HF : NoDup (dkeys F)).
    { unfold F, dkeys. rewrite map_map. simpl. apply FinFun.Injective_map_NoDup; [intros x y Hq; congruence|]. apply NoDup_filter. apply NoDup_map_of with (f := sname). exact params_names. }
    assert (HPQ : NoDup (dkeys P ++ dkeys Q)).
    { apply NoDup_app_intro; auto. intros k H1 H2. destruct (HQk k H2) as (p & -> & _). exact (HPs p H1). }
    rewrite (dupdate_app_nodup P Q HPQ).
    assert (Hsplit : forall D E1 E2, dupdate (K:=kwkey) (V:=nd) D (E1 ++ E2) = dupdate (dupdate D E1) E2) by (intros; unfold dupdate; apply fold_left_app).
    rewrite Hsplit.
    assert (HPQF : NoDup (dkeys (P ++ Q) ++ dkeys F)).
    { apply NoDup_app_intro; auto.
      - unfold dkeys. rewrite map_app. exact HPQ.
      - intros k H1 H2. destruct (HFk k H2) as (p & -> & Hp & Hfx). unfold dkeys in H1. rewrite map_app in H1. apply in_app_or in H1 as [H1|H1]; [exact (HPs p H1)|].
        destruct (HQk _ H1) as (q & Hq & _ & Hfq). inv Hq. congruence. }
    rewrite (dupdate_app_nodup _ F HPQF).
    rewrite lget_dupdate_str.
    2:{ unfold dkeys in *. rewrite map_app. exact HPQF. }
    2:{ rewrite Hkd. exact indep_names. }
    2:{ intros s Hs Hin. rewrite Hkd in Hin. apply in_map_iff in Hin as (v & Hv & Hvi).
        assert (Hsp : In s (om_params om)).
        { unfold dkeys in Hs. rewrite !map_app in Hs. apply in_app_or in Hs as [Hs|Hs].
          - apply in_app_or in Hs as [Hs|Hs]; [exfalso; exact (HPs s Hs)|]. destruct (HQk _ Hs) as (q & Hq & Hp & _). inv Hq. exact Hp.
          - destruct (HFk _ Hs) as (q & Hq & Hp & _). inv Hq. exact Hp. }
        exact (names_disjoint v s Hvi Hsp Hv). }
    unfold seen.
    destruct (find (fun v => eqb (sname v) n) (om_indep om)) as [v|] eqn:Ef.
    - apply find_some in Ef as [Hv He]. apply (proj1 (eqb_true _ _)) in He. subst n.
      destruct (Hd v Hv) as (a & H1 & H2). rewrite H2, H1. reflexivity.
    - assert (Hnone : dget dat n = None).
      { apply dget_None. rewrite Hkd. intros Hin. apply in_map_iff in Hin as (v & He & Hv).
        apply (find_none _ _ Ef) in Hv. rewrite He, eqb_refl in Hv. discriminate. }
      rewrite Hnone, !lget_app. unfold F. rewrite lget_syms by (apply NoDup_map_filter; exact params_names).
      rewrite find_filter. destruct (find _ (om_params om)) as [p|] eqn:Ep; [reflexivity|]. simpl.
      unfold Q. rewrite lget_zip by exact Hfree.
      change (filter (fun p => negb (p_fixed (h p))) (om_params om)) with free.
      assert (Hm : forall ks, dget (combine ks (map scalar xs)) n = option_map scalar (dget (combine ks xs) n)).
      { clear. intros ks. revert xs. induction ks as [|k ks IH]; intros [|x xs]; simpl; try reflexivity. destruct (eq_dec n k); [reflexivity|apply IH]. }
      rewrite Hm. destruct (dget (combine (map sname free) xs) n); [reflexivity|]. simpl.
      unfold P. rewrite <- (map_map (fun kv => (fst kv, scalar (snd kv))) (fun kv => (KStr (fst kv), snd kv))).
      rewrite lget_strs by (unfold dkeys; rewrite map_map; exact Hkw).
      exact (dget_mapv (fun _ => scalar) kw n).
  Qed.
End Seen.
