(** * NumFit: what the objectives get from a CallableNumericalModel. *)
From Coq Require Import Reals Lra Lia.
From Verif Require Import PyBase PyFacts Toposort ToposortFacts LayerFacts Signature SignatureFacts Expr Model ModelSpec ModelFacts CallFacts NumPy NumFacts NumModel NumSpec NumMain ArrModel ArrFacts ArrCall Objective ObjSpec Minimizer MinSpec MinLemmas Fit FitSpec ArrSpec EndSpec GenSpec GenFit NumFitSpec OdeFit.
From Verif Require ArrObj.
Local Open Scope R_scope.
Local Open Scope list_scope.

Section NumOm.
  Context (simp : expr -> expr) (ord1 ord2 : list sym -> list sym) (items : dict sym (comp (V:=res nd))) (user : dict sym (list sym)) (m : amodel).
  Hypothesis Ho1 : set_order ord1.
  Hypothesis Ho2 : set_order ord2.
  Hypothesis Hp : proper_numerical items user.
  Hypothesis Hm : init_numerical ord1 items user = Ok m.
  Let om := om_of KCallable simp ord2 m.

  Lemma num_dep : NoDup (m_dep m) /\ alphabetical sname (m_dep m) /\ forall s, In s (m_dep m) -> In s (dkeys items).
  Proof using Ho1 Hp Hm.
    destruct (init_numerical_inv _ _ _ _ Hm) as (conn & Hc & _).
    destruct (classify_inv _ _ _ _ Hc) as (l0 & mid & top & Ht & H1 & H2 & _ & _ & E3 & _). rewrite <- H2 in Ht.
    pose proof (nm_conn_nodup ord1 items user m Hp Hm) as Hnd. pose proof (toposort_ok _ _ Hnd Ht) as (Hn & Hnode & _).
    assert (Htop : NoDup top).
    { cbn [concat] in Hn. rewrite concat_app in Hn. cbn [concat] in Hn. rewrite app_nil_r in Hn. apply NoDup_app_split in Hn as (_ & Hn & _). apply NoDup_app_split in Hn as (_ & Hn & _). exact Hn. }
    split; [|split].
    - rewrite E3. apply NoDup_sort_by. eapply Permutation_NoDup; [symmetry; apply Ho1|exact Htop].
    - rewrite E3. apply sort_by_sorted.
    - intros s Hs. rewrite E3, in_sort_by, in_ord in Hs by exact Ho1.
      pose proof (toposort_depth _ _ Hnd Ht) as Hds.
      assert (Hat : at_layer (l0 :: mid ++ [top]) (S (List.length mid)) s).
      { exists top. split; [cbn [nth_error]; rewrite nth_error_app2 by lia; rewrite Nat.sub_diag; reflexivity|exact Hs]. }
      destruct Hds as [_ _ _ Hpred]. destruct (Hpred _ _ Hat) as (y & He & _). destruct He as (He & _).
      apply (nm_edge ord1 items user m Ho1 Hp Hm) in He. exact (nm_depends_key items user Hp s y He).
  Qed.
  Lemma num_signature : m_sig m = required (map sname (m_indep m ++ m_params m)) /\ NoDup (map sname (m_indep m ++ m_params m)).
  Proof using Ho1 Hm. destruct (nm_layers ord1 items user m Ho1 Hm) as (l0 & mid & top & _ & _ & _ & Hs & Hn & _). auto. Qed.
  Lemma num_callable : callable om.
  Proof using Ho1 Hp Hm.
    destruct num_signature as (Hs & Hn). destruct num_dep as (Hd & _). split; [|apply om_of_by_keyword]. split; [|split; [exact Hn|exact Hd]].
    cbn [om om_of om_names om_indep om_params]. rewrite Hs, sp_name_required. reflexivity.
  Qed.
  Lemma num_lists (o : dict sym nd) : Permutation (dkeys o) (dkeys items) -> alphabetical sname (dkeys o) -> lists_dependent om o.
  Proof using Ho1 Hp Hm.
    intros Hperm Halpha. unfold lists_dependent. cbn [om om_of om_dep]. destruct num_dep as (N3 & S3 & Hk).
    assert (Hndo : NoDup (dkeys o)) by (eapply Permutation_NoDup; [apply Permutation_sym; exact Hperm|exact (pn_dict _ _ Hp)]).
    apply (alphabetical_unique sname).
    - intros a b Ha Hb. apply filter_In in Ha as [Ha _]. apply filter_In in Hb as [Hb _]. apply (pn_names _ _ Hp); left; eapply Permutation_in; eassumption.
    - apply NoDup_Permutation; [apply NoDup_filter; exact Hndo|exact N3|]. intros s. rewrite filter_In, inb_In. split; [tauto|]. intros Hs. split; [|exact Hs].
      eapply Permutation_in; [apply Permutation_sym; exact Hperm|]. apply Hk. exact Hs.
    - apply ArrObj.alpha_filter; exact Halpha.
    - exact S3.
  Qed.
  Lemma num_indep_var v : In v (m_indep m) -> is_par v = false.
  Proof using Ho1 Hp Hm. intros H. apply (nm_indep ord1 items user m Ho1 Hp Hm) in H. tauto. Qed.
  Lemma num_par p : In p (m_params m) -> is_par p = true.
  Proof using Ho1 Hp Hm. intros H. apply (nm_params ord1 items user m Ho1 Hp Hm) in H. tauto. Qed.

  Lemma num_predicts Y sh theta out : (forall v, In v (m_indep m) -> Y v <> None) ->
    components_are items user m Y sh theta out -> predicts om Y sh theta (at_points out).
  Proof using Ho1 Ho2 Hp Hm.
    intros HY (Hsol & Hsh) d (Hnd & Hget). destruct num_signature as (_ & Hn).
    assert (Hsup : supplies (named (given_values Y theta) (m_indep m ++ m_params m)) [] (map (fun kv => (fst kv, Ok (snd kv))) d)).
    { apply supplies_by_name.
      - unfold named. rewrite map_map. exact Hn.
      - unfold dkeys. rewrite map_map. exact Hnd.
      - intros n v. unfold named. rewrite in_map_iff.
        assert (Hgd : dget (map (fun kv => (fst kv, Ok (snd kv))) d) n = option_map Ok (dget d n)).
        { clear. induction d as [|[k a] d IH]; [reflexivity|]. cbn [map dget fst snd]. destruct (eq_dec n k); [reflexivity|exact IH]. }
        rewrite Hgd. split.
        + intros E. destruct (dget d n) as [a|] eqn:Ea; [|discriminate]. cbn in E. injection E as <-. apply Hget in Ea as [(v & Hv & Hvn & HYv)|(p & Hpp & Hpn & ->)].
          * exists v. split; [|apply in_or_app; left; exact Hv]. unfold given_values. rewrite (num_indep_var v Hv), HYv, Hvn. reflexivity.
          * exists p. split; [|apply in_or_app; right; exact Hpp]. unfold given_values. rewrite (num_par p Hpp), Hpn. reflexivity.
        + intros (s & E & Hs). injection E as <- <-. unfold given_values. apply in_app_or in Hs as [Hs|Hs].
          * rewrite (num_indep_var s Hs). pose proof (HY s Hs) as HYs. destruct (Y s) as [a|] eqn:Ea; [|congruence].
            rewrite (proj2 (Hget (sname s) a)); [reflexivity|]. left. exists s. auto.
          * rewrite (num_par s Hs). rewrite (proj2 (Hget (sname s) (scalar (theta s)))); [reflexivity|]. right. exists s. auto. }
    destruct (numerical_call NDalg ord1 ord2 items user m _ _ _ _ Ho1 Ho2 Hp Hm Hsol Hsup) as (names & Hperm & Halpha & Hcall).
    assert (Hc : om_call om d = Ok (combine names (map (fun s => atleast_1d (out s)) names))).
    { cbn [om om_of om_call]. unfold arr_call. rewrite Hcall. cbn [bind mo_vars mo_out].
      assert (HM : mapM (fun x => x) (map (fun s => @Ok nd (out s)) names) = Ok (map out names)).
      { clear. induction names as [|s l IH]; [reflexivity|]. cbn [map mapM bind]. rewrite IH. reflexivity. }
      rewrite HM. cbn [bind]. rewrite map_map. unfold mo_dict. cbn [mo_vars mo_out]. rewrite dict_of_nodup; [reflexivity|].
      change (NoDup (dkeys (combine names (map (fun s => atleast_1d (out s)) names)))). rewrite keys_combine_map. eapply Permutation_NoDup; [apply Permutation_sym; exact Hperm|exact (pn_dict _ _ Hp)]. }
    exists (combine names (map (fun s => atleast_1d (out s)) names)). split; [exact Hc|].
    assert (Hk : dkeys (combine names (map (fun s => atleast_1d (out s)) names)) = names) by apply keys_combine_map.
    split; [apply num_lists; rewrite Hk; assumption|]. intros v Hv. destruct num_dep as (_ & _ & Hdk).
    assert (He : entry (combine names (map (fun s => atleast_1d (out s)) names)) v = atleast_1d (out v)).
    { assert (Hin : In v names) by (eapply Permutation_in; [apply Permutation_sym; exact Hperm|exact (Hdk v Hv)]). clear -Hin. unfold entry.
      induction names as [|w l IH]; [destruct Hin|]. cbn [map combine dget]. destruct (eq_dec v w) as [->|E]; [reflexivity|]. destruct Hin as [->|Hin]; [exfalso; apply E; reflexivity|exact (IH Hin)]. }
    rewrite He. split; [exact (Hsh v Hv)|]. intros i _. reflexivity.
  Qed.
End NumOm.
