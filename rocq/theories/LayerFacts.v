(** * LayerFacts: the layer of a symbol is its depth in the dependency graph. *)
From Verif Require Import PyBase PyFacts Toposort ToposortFacts.
From Coq Require Import Relations.

Section Layers.
  Context {A : Type} `{EqDec A}.
  Implicit Types d data : dict A (list A).

  (** [x] is in the [i]-th layer *)
  Definition at_layer (layers : list (list A)) (i : nat) (x : A) : Prop :=
    exists L, nth_error layers i = Some L /\ In x L.

  Lemma peel_pred d : forall fuel layers, NoDup (dkeys d) -> closed d -> peel fuel d = Ok layers ->
    forall i x, at_layer layers (S i) x -> exists y, dep_edge d x y /\ at_layer layers i y.
  Proof.
    intros fuel; revert d; induction fuel as [|fuel IH]; intros d layers Hnd Hc Hp i x (L & Hi & Hx); simpl in Hp; [discriminate|].
    destruct (ready d) as [|x0 L0] eqn:HL.
    - destruct d; [|discriminate]. inv Hp. destruct i; discriminate.
    - apply bind_Ok in Hp as (rest & Hr & Hq). inv Hq. rewrite <- HL in *. simpl in Hi.
      assert (Hnd' := NoDup_advance d (ready d) Hnd). assert (Hc' := closed_advance d (ready d) Hc).
      pose proof (peel_ok _ _ _ Hnd' Hc' Hr) as (Hperm & _ & _).
      assert (Hxk : In x (dkeys (advance d (ready d)))).
      { eapply Permutation_in; [exact Hperm|]. apply in_concat. exists L; split; [eapply nth_error_In; exact Hi|exact Hx]. }
      destruct i as [|i].
      + (* layer 1 *)
        assert (Hrd : In x (ready (advance d (ready d)))).
        { destruct fuel as [|fuel]; simpl in Hr; [discriminate|].
          destruct (ready (advance d (ready d))) as [|z Lz] eqn:HLz.
          - destruct (advance d (ready d)); [|discriminate]. inv Hr. discriminate.
          - apply bind_Ok in Hr as (r2 & _ & Hq). inv Hq. simpl in Hi. inv Hi. exact Hx. }
        apply in_ready in Hrd. apply in_advance in Hrd as (ds0 & Hin & Hnx & He).
        destruct ds0 as [|y ds0].
        * exfalso. apply Hnx. apply in_ready; exact Hin.
        * exists y. split; [exists (y :: ds0); split; [exact Hin|left; reflexivity]|].
          exists (ready d). split; [reflexivity|].
          destruct (in_dec eq_dec y (ready d)) as [|Hn]; [assumption|]. exfalso.
          assert (Hy : In y (diffl (y :: ds0) (ready d))) by (apply in_diffl; split; [left; reflexivity|exact Hn]).
          rewrite <- He in Hy; contradiction.
      + destruct (IH _ _ Hnd' Hc' Hr i x) as (y & He & (L' & HL' & Hy)); [exists L; auto|].
        exists y. split.
        * destruct He as (ds & Hin & Hyd). apply in_advance in Hin as (ds0 & Hin & _ & ->).
          apply in_diffl in Hyd as [Hyd _]. exists ds0; auto.
        * exists L'; auto.
  Qed.

  Lemma at_layer_unique layers i j x : NoDup (concat layers) -> at_layer layers i x -> at_layer layers j x -> i = j.
  Proof.
    revert i j; induction layers as [|M layers IH]; intros i j Hnd (L & Hi & Hx) (L' & Hj & Hx'); [destruct i; discriminate|].
    simpl in Hnd.
    assert (Hd : forall z, In z M -> ~ In z (concat layers)).
    { clear -Hnd. induction M as [|a M IHM]; simpl in *; intros z Hz; [contradiction|].
      inversion Hnd as [|a' M' Hm1 Hm2]; subst. destruct Hz as [<-|Hz]; [intros Hm; apply Hm1, in_or_app; auto|apply IHM; assumption]. }
    assert (Hnd' : NoDup (concat layers)).
    { clear -Hnd. induction M; simpl in *; [exact Hnd|]. inv Hnd; auto. }
    destruct i as [|i], j as [|j]; simpl in *; auto.
    - inv Hi. exfalso. apply (Hd x Hx). apply in_concat. exists L'; split; [eapply nth_error_In; eauto|exact Hx'].
    - inv Hj. exfalso. apply (Hd x Hx'). apply in_concat. exists L; split; [eapply nth_error_In; eauto|exact Hx].
    - f_equal. eapply IH; [exact Hnd'|exists L; eauto|exists L'; eauto].
  Qed.

  Lemma at_layer_concat layers x : In x (concat layers) <-> exists i, at_layer layers i x.
  Proof.
    rewrite in_concat. split.
    - intros (L & HL & Hx). apply In_nth_error in HL as (i & Hi). exists i, L; auto.
    - intros (i & L & Hi & Hx). exists L; split; [eapply nth_error_In; exact Hi|exact Hx].
  Qed.

  (** The three facts that determine the layer of every symbol. *)
  Record depth_spec data (layers : list (list A)) : Prop := {
    ds_nodup : NoDup (concat layers);
    ds_node : forall x, node data x <-> exists i, at_layer layers i x;
    ds_below : forall i x y, at_layer layers i x -> proper_edge data x y -> exists j, j < i /\ at_layer layers j y;
    ds_pred : forall i x, at_layer layers (S i) x -> exists y, proper_edge data x y /\ at_layer layers i y
  }.

  Lemma toposort_depth data layers : NoDup (dkeys data) -> toposort data = Ok layers -> depth_spec data layers.
  Proof.
    intros Hnd Ht. pose proof (toposort_ok _ _ Hnd Ht) as (H1 & H2 & H3 & _). constructor.
    - exact H1.
    - intros x. rewrite <- H2. apply at_layer_concat.
    - intros i x y (L & Hi & Hx) He. destruct (H3 i L x y Hi Hx He) as (j & L' & Hj & HL' & Hy). exists j; split; [exact Hj|exists L'; auto].
    - intros i x Hx. rewrite toposort_peel in Ht.
      destruct (peel_pred _ _ _ (NoDup_prepare data Hnd) (closed_prepare data) Ht i x Hx) as (y & He & Hy).
      exists y; split; [apply dep_edge_prepare; exact He|exact Hy].
  Qed.

  (** A subgraph that is closed under dependencies keeps the depths. *)
  Lemma depth_subgraph d1 l1 d2 l2 (P : A -> Prop) :
    depth_spec d1 l1 -> depth_spec d2 l2 ->
    (forall x, P x -> node d1 x /\ node d2 x) ->
    (forall x, P x -> forall y, proper_edge d1 x y <-> proper_edge d2 x y) ->
    (forall x y, P x -> proper_edge d1 x y -> P y) ->
    forall n i j x, i <= n -> P x -> at_layer l1 i x -> at_layer l2 j x -> i = j.
  Proof.
    intros S1 S2 HPn HPe HPc. induction n as [|n IH]; intros i j x Hle HP Hi Hj.
    - assert (i = 0) by lia. subst i. destruct j as [|j]; [reflexivity|]. exfalso.
      destruct (ds_pred _ _ S2 j x Hj) as (y & He & _). apply (HPe x HP) in He.
      destruct (ds_below _ _ S1 0 x y Hi He) as (k & Hk & _). lia.
    - destruct i as [|i].
      + destruct j as [|j]; [reflexivity|]. exfalso.
        destruct (ds_pred _ _ S2 j x Hj) as (y & He & _). apply (HPe x HP) in He.
        destruct (ds_below _ _ S1 0 x y Hi He) as (k & Hk & _). lia.
      + destruct (ds_pred _ _ S1 i x Hi) as (y & He & Hy).
        assert (HPy : P y) by (eapply HPc; eauto).
        assert (He2 : proper_edge d2 x y) by (apply HPe; assumption).
        destruct (ds_below _ _ S2 j x y Hj He2) as (k & Hk & Hyk).
        assert (i = k) by (eapply (IH i k y); eauto; lia). subst k.
        destruct j as [|j]; [lia|]. f_equal.
        destruct (ds_pred _ _ S2 j x Hj) as (z & Hz & Hzj).
        assert (Hz1 : proper_edge d1 x z) by (apply HPe; assumption).
        destruct (ds_below _ _ S1 (S i) x z Hi Hz1) as (k & Hkl & Hzk).
        assert (k = j) by (eapply (IH k j z); eauto; lia). lia.
  Qed.
End Layers.
