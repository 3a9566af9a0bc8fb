(** * NumDepth: which components of a numerical model are reported as dependent. *)
From Verif Require Import PyBase PyFacts Toposort ToposortFacts LayerFacts Signature SignatureFacts Expr Model ModelSpec ModelFacts CallFacts InitFacts NumModel NumSpec NumMain NumDepthSpec.
Local Open Scope nat_scope.

Section NumDepth.
  Context {V : Type}.
  Notation model := (model (V:=V)).
  Notation comp := (comp (V:=V)).

  Lemma nm_layer_lists ord (items : dict sym comp) user (m : model) :
    set_order ord -> init_numerical ord items user = Ok m ->
    exists l0 mid top, toposort (m_conn m) = Ok (l0 :: mid ++ [top]) /\
      (forall s, In s (m_dep m) <-> In s top) /\ (forall s, In s (m_inter m) <-> In s (concat mid)) /\
      alphabetical sname (m_dep m) /\ alphabetical sname (m_inter m).
  Proof.
    intros Ho Hi. destruct (init_numerical_inv _ _ _ _ Hi) as (conn & Hc & _).
    destruct (classify_inv _ _ _ _ Hc) as (l0 & mid & top & Ht & H1 & H2 & _ & _ & E3 & E4 & _).
    rewrite <- H2 in Ht. exists l0, mid, top. split; [exact Ht|].
    split; [intros s; rewrite E3, in_sort_by; apply in_ord; exact Ho|]. split.
    - intros s. rewrite E4, in_sort_by, in_flat_map, in_concat. split.
      + intros (L & HL & Hs). exists L. split; [exact HL|]. revert Hs. rewrite in_ord by exact Ho. auto.
      + intros (L & HL & Hs). exists L. split; [exact HL|]. revert Hs. rewrite in_ord by exact Ho. auto.
    - split; [rewrite E3|rewrite E4]; apply sort_by_sorted.
  Qed.

  Lemma num_classified ord (items : dict sym comp) user (m : model) :
    set_order ord -> proper_numerical items user -> init_numerical ord items user = Ok m ->
    (forall s, In s (m_dep m) <-> exists n, 0 < n /\ depends_down items user s n /\ forall t k, depends_down items user t k -> k <= n) /\
    (forall s, In s (m_inter m) <-> (exists t, depends items user s t) /\ ~ In s (m_dep m)).
  Proof.
    intros Ho Hp Hi.
    destruct (nm_layer_lists ord items user m Ho Hi) as (l0 & mid & top & Ht & Hdep & Hint & _).
    assert (Hcn : NoDup (dkeys (m_conn m))) by (exact (nm_conn_nodup ord items user m Hp Hi)).
    pose proof (toposort_depth _ _ Hcn Ht) as S.
    pose proof (toposort_ok _ _ Hcn Ht) as (_ & _ & _ & Hne).
    set (layers := l0 :: mid ++ [top]) in *.
    assert (Hedge : forall x y, proper_edge (m_conn m) x y <-> depends items user x y).
    { intros x y. unfold proper_edge. rewrite (nm_edge ord items user m Ho Hp Hi). split; [tauto|]. intros H. split; [exact H|]. intros ->. exact (pn_noself _ _ Hp _ H). }
    assert (Hup : forall x n, depends_down items user x n -> forall i, at_layer layers i x -> n <= i).
    { induction 1 as [s|s t n Hr Hc IH]; intros i Hx; [lia|].
      destruct (ds_below _ _ S i s t Hx) as (j & Hj & Hy); [apply Hedge; auto|]. specialize (IH j Hy). lia. }
    assert (Hdown : forall i x, at_layer layers i x -> depends_down items user x i).
    { induction i as [|i IH]; intros x Hx; [constructor|].
      destruct (ds_pred _ _ S i x Hx) as (y & He & Hy). apply Hedge in He as Hr. apply (ndown_S _ _ x y i Hr). auto. }
    assert (Hlen : List.length layers = Datatypes.S (Datatypes.S (List.length mid))) by (unfold layers; simpl; rewrite app_length; simpl; lia).
    assert (Htop : forall x, In x top <-> at_layer layers (Datatypes.S (List.length mid)) x).
    { intros x. assert (Hn : nth_error layers (Datatypes.S (List.length mid)) = Some top).
      { unfold layers; simpl. rewrite nth_error_app2 by lia. rewrite Nat.sub_diag. reflexivity. }
      split; [intros Hx; exists top; auto|intros (L & HL & Hx)]. rewrite Hn in HL. inv HL. exact Hx. }
    assert (Hin : forall x n, 0 < n -> depends_down items user x n -> exists i, 0 < i /\ at_layer layers i x).
    { intros x n Hn Hc. inv Hc; [lia|]. assert (Hnode : node (m_conn m) x).
      { left. assert (He : proper_edge (m_conn m) x t) by (apply Hedge; auto). destruct He as [(ds & Hi1 & _) _]. change x with (fst (x, ds)). apply in_map; exact Hi1. }
      apply (ds_node _ _ S) in Hnode as (i & Hx). exists i. split; [|exact Hx]. pose proof (Hup x (Datatypes.S n0) (ndown_S _ _ x t n0 H H0) i Hx). lia. }
    assert (Hbound : forall t k, depends_down items user t k -> k <= Datatypes.S (List.length mid)).
    { intros t k Hc. destruct k as [|k]; [lia|]. destruct (Hin t (Datatypes.S k) ltac:(lia) Hc) as (i & _ & Hx).
      pose proof (Hup t _ Hc i Hx). destruct Hx as (L & HL & _). assert (i < List.length layers) by (apply nth_error_Some; rewrite HL; discriminate). lia. }
    assert (Hdeps : forall s, In s (m_dep m) <-> exists n, 0 < n /\ depends_down items user s n /\ forall t k, depends_down items user t k -> k <= n).
    { intros s. rewrite (Hdep s), Htop. split.
      - intros Hx. exists (Datatypes.S (List.length mid)). split; [lia|]. split; [apply Hdown; exact Hx|exact Hbound].
      - intros (n & Hn & Hc & Hmax). destruct (Hin s n Hn Hc) as (i & Hi0 & Hx).
        assert (n <= Datatypes.S (List.length mid)) by (apply (Hbound s); exact Hc).
        assert (Hne' : top <> []) by (apply Hne; unfold layers; right; apply in_or_app; right; left; reflexivity).
        destruct top as [|z top'] eqn:Htp; [congruence|].
        assert (Hz : at_layer layers (Datatypes.S (List.length mid)) z) by (apply Htop; left; reflexivity).
        pose proof (Hmax z _ (Hdown _ _ Hz)). pose proof (Hup s n Hc i Hx). destruct Hx as (L & HL & HxL).
        assert (i < List.length layers) by (apply nth_error_Some; rewrite HL; discriminate).
        replace (Datatypes.S (List.length mid)) with i by lia. exists L; auto. }
    split; [exact Hdeps|].
    intros s. rewrite (Hint s), (Hdep s), Htop. split.
    - intros Hm. apply at_layer_concat in Hm as (i & L & HL & Hx).
      assert (Hlt : i < List.length mid) by (apply nth_error_Some; rewrite HL; discriminate).
      assert (Hx' : at_layer layers (Datatypes.S i) s).
      { exists L. split; [|exact Hx]. unfold layers. simpl. rewrite nth_error_app1 by exact Hlt. exact HL. }
      split.
      + destruct (ds_pred _ _ S i s Hx') as (y & He & _). exists y. apply Hedge; exact He.
      + intros Hx2. pose proof (at_layer_unique _ _ _ _ (ds_nodup _ _ S) Hx' Hx2). lia.
    - intros ((t & Hr) & Hno). destruct (Hin s 1 ltac:(lia) (ndown_S _ _ s t 0 Hr (ndown_0 _ _ t))) as (i & Hi0 & Hx).
      destruct i as [|i]; [lia|]. apply at_layer_concat. exists i. destruct Hx as (L & HL & HxL). exists L. split; [|exact HxL].
      unfold layers in HL. simpl in HL. destruct (Nat.lt_ge_cases i (List.length mid)) as [Hlt|Hge].
      + rewrite nth_error_app1 in HL by exact Hlt. exact HL.
      + exfalso. rewrite nth_error_app2 in HL by exact Hge. destruct (i - List.length mid) as [|d] eqn:E; [|destruct d; discriminate].
        inv HL. apply Hno. apply Htop. exact HxL.
  Qed.
End NumDepth.
