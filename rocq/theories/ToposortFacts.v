(** * ToposortFacts: correctness of the toposort loop. *)
From Verif Require Import PyBase PyFacts Toposort.
From Coq Require Import Relations.

Section TopoFacts.
  Context {A : Type} `{EqDec A}.
  Implicit Types d data : dict A (list A).

  Definition dep_edge data (x y : A) : Prop :=
    exists ds, In (x, ds) data /\ In y ds.
  Definition closed data : Prop :=
    forall x y, dep_edge data x y -> In y (dkeys data).

  (** *** one round *)
  Lemma in_ready d x : In x (ready d) <-> In (x, []) d.
  Proof.
    unfold ready. rewrite in_map_iff. split.
    - intros ([k ds] & Hk & Hin). apply filter_In in Hin as [Hin Hz]. simpl in *. subst.
      destruct ds; [exact Hin|discriminate].
    - intros Hin. exists (x, []); split; [reflexivity|]. apply filter_In; split; [exact Hin|reflexivity].
  Qed.
  Lemma in_advance d L x ds :
    In (x, ds) (advance d L) <-> exists ds0, In (x, ds0) d /\ ~ In x L /\ ds = diffl ds0 L.
  Proof.
    unfold advance. rewrite in_map_iff. split.
    - intros ([k ds0] & Hk & Hin). apply filter_In in Hin as [Hin Hz]. simpl in *. inv Hk.
      exists ds0; repeat split; auto. apply inb_false. apply negb_true_iff; exact Hz.
    - intros (ds0 & Hin & Hn & ->). exists (x, ds0); split; [reflexivity|].
      apply filter_In; split; [exact Hin|]. simpl. apply negb_true_iff, inb_false; exact Hn.
  Qed.
  Lemma dkeys_advance d L : dkeys (advance d L) = filter (fun x => negb (inb x L)) (dkeys d).
  Proof.
    unfold advance, dkeys. rewrite map_map. simpl.
    induction d as [|[k ds] d IH]; simpl; [reflexivity|].
    destruct (negb (inb k L)); simpl; rewrite IH; reflexivity.
  Qed.
  Lemma closed_advance d L : closed d -> closed (advance d L).
  Proof.
    intros Hc x y (ds & Hin & Hy). apply in_advance in Hin as (ds0 & Hin & Hx & ->).
    apply in_diffl in Hy as [Hy Hyl]. rewrite dkeys_advance. apply filter_In; split.
    - apply (Hc x y). exists ds0; auto.
    - apply negb_true_iff, inb_false; exact Hyl.
  Qed.
  Lemma NoDup_advance d L : NoDup (dkeys d) -> NoDup (dkeys (advance d L)).
  Proof. rewrite dkeys_advance. apply NoDup_filter. Qed.
  Lemma ready_incl d : incl (ready d) (dkeys d).
  Proof.
    intros x Hx. apply in_ready in Hx. change x with (fst (x, @nil A)). apply in_map; exact Hx.
  Qed.
  Lemma NoDup_ready d : NoDup (dkeys d) -> NoDup (ready d).
  Proof.
    unfold ready, dkeys. induction d as [|[k ds] d IH]; simpl; intros Hnd; [constructor|].
    inv Hnd. destruct ds; simpl; [|auto]. constructor; [|auto].
    intros Hk; apply H2. apply in_map_iff in Hk as (kd & He & Hkd). apply filter_In in Hkd as [Hkd _].
    rewrite <- He. apply in_map; exact Hkd.
  Qed.
  Lemma filter_length_le {B} (f : B -> bool) l : List.length (filter f l) <= List.length l.
  Proof. induction l as [|y l IH]; simpl; [lia|]. destruct (f y); simpl; lia. Qed.
  Lemma filter_length_lt {B} (f : B -> bool) l x :
    In x l -> f x = false -> List.length (filter f l) < List.length l.
  Proof.
    induction l as [|y l IH]; simpl; [tauto|]. intros [->|Hin] Hf.
    - rewrite Hf. pose proof (filter_length_le f l). lia.
    - specialize (IH Hin Hf). destruct (f y); simpl; lia.
  Qed.
  Lemma length_advance d : ready d <> [] -> List.length (advance d (ready d)) < List.length d.
  Proof.
    intros Hr. unfold advance. rewrite map_length.
    destruct (ready d) as [|x L] eqn:HL; [congruence|].
    assert (Hx : In (x, []) d) by (apply in_ready; rewrite HL; left; reflexivity).
    eapply filter_length_lt; [exact Hx|]. simpl. apply negb_false_iff, inb_In. left; reflexivity.
  Qed.
  Lemma NoDup_app_disj {B} (l m : list B) :
    NoDup l -> NoDup m -> (forall x, In x l -> ~ In x m) -> NoDup (l ++ m).
  Proof.
    induction 1 as [|x l Hx Hl IH]; simpl; intros Hm Hd; [exact Hm|].
    constructor.
    - rewrite in_app_iff. intros [Hi|Hi]; [contradiction|]. apply (Hd x); [left; reflexivity|exact Hi].
    - apply IH; [exact Hm|]. intros y Hy; apply Hd; right; exact Hy.
  Qed.
  Lemma perm_split d : NoDup (dkeys d) ->
    Permutation (dkeys d) (ready d ++ dkeys (advance d (ready d))).
  Proof.
    intros Hnd. apply NoDup_Permutation; [exact Hnd| |].
    - apply NoDup_app_disj; [apply NoDup_ready; exact Hnd|apply NoDup_advance; exact Hnd|].
      intros x Hx. rewrite dkeys_advance, filter_In, negb_true_iff, inb_false. tauto.
    - intros x. rewrite in_app_iff, dkeys_advance, filter_In, negb_true_iff, inb_false. split.
      + intros Hx. destruct (in_dec eq_dec x (ready d)); tauto.
      + intros [Hx|[Hx _]]; [apply ready_incl; exact Hx|exact Hx].
  Qed.

  (** *** a dictionary in which everything has a dependency has a cycle *)
  Fixpoint chain (R : A -> A -> Prop) (l : list A) : Prop :=
    match l with
    | x :: ((y :: _) as l') => R x y /\ chain R l'
    | _ => True
    end.
  Lemma chain_walk (R : A -> A -> Prop) (S : list A) :
    (forall x, In x S -> exists y, In y S /\ R x y) ->
    forall n x, In x S -> exists l, List.length l = n /\ incl (x :: l) S /\ chain R (x :: l).
  Proof.
    intros Hs. induction n as [|n IH]; intros x Hx.
    - exists []; repeat split; simpl; auto. intros z [<-|[]]; exact Hx.
    - destruct (Hs x Hx) as (y & Hy & Hxy). destruct (IH y Hy) as (l & Hl & Hi & Hc).
      exists (y :: l); repeat split; simpl; auto.
      intros z [<-|Hz]; [exact Hx|]. apply Hi; exact Hz.
  Qed.
  Lemma chain_app_l R l m : chain R (l ++ m) -> chain R l.
  Proof.
    induction l as [|x l IH]; intros Hc; [exact I|].
    destruct l as [|y l]; [exact I|].
    destruct Hc as [H1 H2]. split; [exact H1|]. apply IH; exact H2.
  Qed.
  Lemma chain_app_r R l m : chain R (l ++ m) -> chain R m.
  Proof.
    induction l as [|x l IH]; simpl; [auto|]. intros Hc. apply IH.
    destruct (l ++ m); [exact I|tauto].
  Qed.
  Lemma chain_clos (R : A -> A -> Prop) x l y : chain R (x :: l ++ [y]) -> clos_trans A R x y.
  Proof.
    revert x; induction l as [|z l IH]; intros x Hc.
    - simpl in Hc. apply t_step; tauto.
    - destruct Hc as [Hxz Hc]. apply t_trans with z; [apply t_step; exact Hxz|]. apply IH; exact Hc.
  Qed.
  Lemma dup_split (l : list A) : ~ NoDup l -> exists x l1 l2 l3, l = l1 ++ x :: l2 ++ x :: l3.
  Proof.
    induction l as [|x l IH]; intros Hn.
    - exfalso; apply Hn; constructor.
    - destruct (in_dec eq_dec x l) as [Hx|Hx].
      + apply in_split in Hx as (l2 & l3 & ->). exists x, [], l2, l3; reflexivity.
      + destruct IH as (y & l1 & l2 & l3 & ->).
        * intros Hnd; apply Hn; constructor; assumption.
        * exists y, (x :: l1), l2, l3; reflexivity.
  Qed.
  Lemma stuck_cycle (R : A -> A -> Prop) (S : list A) :
    S <> [] -> (forall x, In x S -> exists y, In y S /\ R x y) -> exists x, clos_trans A R x x.
  Proof.
    intros Hne Hs. destruct S as [|x0 S0] eqn:HS; [congruence|]. rewrite <- HS in *.
    destruct (chain_walk R S Hs (List.length S) x0) as (l & Hl & Hi & Hc); [rewrite HS; left; reflexivity|].
    assert (Hn : ~ NoDup (x0 :: l)).
    { intros Hnd. pose proof (NoDup_incl_length Hnd Hi) as Hle. simpl in Hle. lia. }
    apply dup_split in Hn as (x & l1 & l2 & l3 & He). rewrite He in Hc.
    apply chain_app_r in Hc. exists x. apply (chain_clos R x l2 x).
    change (x :: l2 ++ x :: l3) with ((x :: l2) ++ x :: l3) in Hc.
    replace ((x :: l2) ++ x :: l3) with ((x :: l2 ++ [x]) ++ l3) in Hc by (simpl; rewrite <- app_assoc; reflexivity).
    apply chain_app_l in Hc. exact Hc.
  Qed.

  (** *** the loop *)
  Definition layered d (layers : list (list A)) : Prop :=
    forall i L x y, nth_error layers i = Some L -> In x L -> dep_edge d x y ->
      exists j L', j < i /\ nth_error layers j = Some L' /\ In y L'.

  Lemma peel_ok d : forall fuel layers, NoDup (dkeys d) -> closed d -> peel fuel d = Ok layers ->
    Permutation (concat layers) (dkeys d) /\ layered d layers /\ (forall L, In L layers -> L <> []).
  Proof.
    intros fuel; revert d; induction fuel as [|fuel IH]; intros d layers Hnd Hc Hp; simpl in Hp; [discriminate|].
    destruct (ready d) as [|x0 L0] eqn:HL.
    - destruct d; [|discriminate]. inv Hp. repeat split; simpl; [constructor| |tauto].
      intros i L x y Hi; destruct i; discriminate.
    - apply bind_Ok in Hp as (rest & Hr & Hq). inv Hq. rewrite <- HL in *.
      apply IH in Hr as (Hperm & Hlay & Hne); [|apply NoDup_advance; exact Hnd|apply closed_advance; exact Hc].
      repeat split.
      + simpl. rewrite Hperm. symmetry; apply perm_split; exact Hnd.
      + intros [|i] L x y Hi Hx Hedge; simpl in Hi.
        * inv Hi. apply in_ready in Hx. destruct Hedge as (ds & Hin & Hy). exfalso.
          assert (He : ds = []). { assert (Hg := In_dget d x ds Hnd Hin). assert (Hg' := In_dget d x [] Hnd Hx). congruence. }
          subst; contradiction.
        * destruct (in_dec eq_dec y (ready d)) as [Hy|Hy].
          -- exists 0, (ready d); repeat split; auto. lia.
          -- destruct Hedge as (ds & Hin & Hyd).
             destruct (Hlay i L x y Hi Hx) as (j & L' & Hj & HL' & HyL').
             { exists (diffl ds (ready d)). split; [|apply in_diffl; auto].
               apply in_advance. exists ds; repeat split; auto.
               assert (Hxk : In x (concat rest)) by (apply in_concat; exists L; split; [eapply nth_error_In; exact Hi|exact Hx]).
               eapply Permutation_in in Hxk; [|exact Hperm]. rewrite dkeys_advance in Hxk.
               apply filter_In in Hxk as [_ Hxk]. apply inb_false, negb_true_iff; exact Hxk. }
             exists (S j), L'; repeat split; auto. lia.
      + intros L [<-|HLin]; [rewrite HL; discriminate|]. apply Hne; exact HLin.
  Qed.

  Lemma peel_not_fuel d : forall fuel, List.length d < fuel ->
    (exists layers, peel fuel d = Ok layers) \/ peel fuel d = Raise CircularDependencyError.
  Proof.
    intros fuel; revert d; induction fuel as [|fuel IH]; intros d Hl; [lia|]. simpl.
    destruct (ready d) as [|x0 L0] eqn:HL.
    - destruct d; eauto.
    - rewrite <- HL. destruct (IH (advance d (ready d))) as [(ls & Hls)|He].
      + assert (Hlt := length_advance d). rewrite HL in Hlt at 1. specialize (Hlt ltac:(discriminate)). lia.
      + rewrite Hls; simpl; eauto.
      + rewrite He; simpl; eauto.
  Qed.

  Lemma clos_trans_mono (R S : A -> A -> Prop) :
    (forall x y, R x y -> S x y) -> forall x y, clos_trans A R x y -> clos_trans A S x y.
  Proof. intros Hi x y; induction 1; [apply t_step; auto|eapply t_trans; eauto]. Qed.

  Lemma peel_circular d : forall fuel, closed d -> peel fuel d = Raise CircularDependencyError ->
    exists x, clos_trans A (dep_edge d) x x.
  Proof.
    intros fuel; revert d; induction fuel as [|fuel IH]; intros d Hc Hp; simpl in Hp; [discriminate|].
    destruct (ready d) as [|x0 L0] eqn:HL.
    - destruct d as [|[k0 ds0] d0] eqn:Hd; [discriminate|]. rewrite <- Hd in *.
      apply (stuck_cycle _ (dkeys d)); [rewrite Hd; discriminate|].
      intros x Hx. apply in_map_iff in Hx as ([k ds] & He & Hin). simpl in He; subst k.
      destruct ds as [|y ds].
      + exfalso. apply in_ready in Hin. rewrite HL in Hin; contradiction.
      + assert (He : dep_edge d x y) by (exists (y :: ds); split; [exact Hin|left; reflexivity]).
        exists y; split; [apply (Hc x y He)|exact He].
    - rewrite <- HL in *. destruct (peel fuel (advance d (ready d))) as [r|e] eqn:He; simpl in Hp; [discriminate|].
      inv Hp. apply IH in He as (x & Hx); [|apply closed_advance; exact Hc].
      exists x. eapply clos_trans_mono; [|exact Hx]. intros a b (ds & Hin & Hb).
      apply in_advance in Hin as (ds0 & Hin & _ & ->). apply in_diffl in Hb as [Hb _]. exists ds0; auto.
  Qed.

  Lemma layered_acyclic d layers : NoDup (concat layers) -> incl (dkeys d) (concat layers) ->
    layered d layers -> forall x, ~ clos_trans A (dep_edge d) x x.
  Proof.
    intros Hnd Hincl Hlay.
    assert (Hlt : forall x y, clos_trans A (dep_edge d) x y -> forall i L, nth_error layers i = Some L -> In x L ->
              exists j L', j < i /\ nth_error layers j = Some L' /\ In y L').
    { intros x y Hxy. induction Hxy as [x y Hxy|x y z H1 IH1 H2 IH2]; intros i L Hi Hx.
      - apply (Hlay i L x y Hi Hx Hxy).
      - destruct (IH1 i L Hi Hx) as (j & L' & Hj & HL' & Hy).
        destruct (IH2 j L' HL' Hy) as (k & L'' & Hk & HL'' & Hz). exists k, L''; repeat split; auto; lia. }
    assert (Huniq : forall i j L L' x, nth_error layers i = Some L -> nth_error layers j = Some L' -> In x L -> In x L' -> i = j).
    { clear -Hnd. induction layers as [|M layers IH]; intros i j L L' x Hi Hj Hx Hx'; [destruct i; discriminate|].
      simpl in Hnd. assert (Hd : forall z, In z M -> ~ In z (concat layers)).
      { clear -Hnd. induction M as [|m M IHM]; simpl in *; intros z Hz; [contradiction|].
        inversion Hnd as [|m' M' Hm1 Hm2]; subst. destruct Hz as [<-|Hz]; [intros Hm; apply Hm1, in_or_app; auto|apply IHM; assumption]. }
      assert (Hnd' : NoDup (concat layers)).
      { clear -Hnd. induction M; simpl in *; [exact Hnd|]. inv Hnd; auto. }
      destruct i as [|i], j as [|j]; simpl in *; auto.
      - inv Hi. exfalso. apply (Hd x Hx). apply in_concat. exists L'; split; [eapply nth_error_In; eauto|exact Hx'].
      - inv Hj. exfalso. apply (Hd x Hx'). apply in_concat. exists L; split; [eapply nth_error_In; eauto|exact Hx].
      - f_equal. eapply IH; eauto. }
    intros x Hx.
    assert (Hxin : In x (concat layers)).
    { apply Hincl. clear -Hx. assert (Hg : forall a b, clos_trans A (dep_edge d) a b -> In a (dkeys d)).
      { intros a b Hab; induction Hab as [a b Hab|a b c H1 IH1 H2 IH2]; [|exact IH1]. destruct Hab as (ds & Hin & _). change a with (fst (a, ds)); apply in_map; exact Hin. }
      eapply Hg; exact Hx. }
    apply in_concat in Hxin as (L & HL & HxL). apply In_nth_error in HL as (i & Hi).
    destruct (Hlt x x Hx i L Hi HxL) as (j & L' & Hj & HL' & HxL'). 
    assert (i = j) by (eapply Huniq; eauto). lia.
  Qed.

  (** *** preparation *)
  Definition proper_edge data (x y : A) : Prop := dep_edge data x y /\ y <> x.

  Lemma dep_edge_strip data x y : dep_edge (strip_self data) x y <-> proper_edge data x y.
  Proof.
    unfold proper_edge, dep_edge, strip_self. split.
    - intros (ds & Hin & Hy). apply in_map_iff in Hin as ([k ds0] & He & Hin). simpl in He; inv He.
      apply filter_In in Hy as [Hy Hn]. apply negb_true_iff, eqb_false in Hn. split; [exists ds0; auto|exact Hn].
    - intros [(ds & Hin & Hy) Hn]. exists (filter (fun e => negb (eqb e x)) ds). split.
      + apply in_map_iff. exists (x, ds); auto.
      + apply filter_In; split; [exact Hy|]. apply negb_true_iff, eqb_false; exact Hn.
  Qed.
  Lemma dep_edge_prepare data x y : dep_edge (prepare data) x y <-> proper_edge data x y.
  Proof.
    rewrite <- dep_edge_strip. unfold prepare, dep_edge. split.
    - intros (ds & Hin & Hy). apply in_app_iff in Hin as [Hin|Hin]; [exists ds; auto|].
      apply in_map_iff in Hin as (z & He & _). inv He; contradiction.
    - intros (ds & Hin & Hy). exists ds; split; [apply in_or_app; auto|exact Hy].
  Qed.
  Lemma dkeys_strip data : dkeys (strip_self data) = dkeys data.
  Proof. unfold dkeys, strip_self. rewrite map_map. reflexivity. Qed.
  Lemma in_concat_dvals data y : In y (concat (dvals data)) <-> exists x, dep_edge data x y.
  Proof.
    unfold dvals, dep_edge. rewrite in_concat. split.
    - intros (ds & Hin & Hy). apply in_map_iff in Hin as ([k ds0] & He & Hin). simpl in He; subst. eauto.
    - intros (x & ds & Hin & Hy). exists ds; split; [|exact Hy]. change ds with (snd (x, ds)). apply in_map; exact Hin.
  Qed.
  (** the symbols of a dependency mapping *)
  Definition node data (x : A) : Prop := In x (dkeys data) \/ exists k, dep_edge data k x.
  Lemma dkeys_prepare data x : In x (dkeys (prepare data)) <-> node data x.
  Proof.
    unfold prepare, node, dkeys. rewrite map_app, map_map. simpl. rewrite map_id.
    fold (dkeys (strip_self data)). rewrite dkeys_strip, in_app_iff.
    unfold extra_items. rewrite in_diffl, in_dedup, in_concat_dvals, dkeys_strip. split.
    - intros [Hx|[(k & Hk) _]]; [left; exact Hx|]. apply dep_edge_strip in Hk as [Hk _]. right; eauto.
    - intros [Hx|(k & Hk)]; [left; exact Hx|].
      destruct (in_dec eq_dec x (dkeys data)) as [Hi|Hi]; [left; exact Hi|]. right; split; [|exact Hi].
      exists k. apply dep_edge_strip. split; [exact Hk|]. intros ->. apply Hi.
      destruct Hk as (ds & Hin & _). change k with (fst (k, ds)); apply in_map; exact Hin.
  Qed.
  Lemma NoDup_prepare data : NoDup (dkeys data) -> NoDup (dkeys (prepare data)).
  Proof.
    intros Hnd. unfold prepare, dkeys. rewrite map_app, map_map. simpl. rewrite map_id.
    fold (dkeys (strip_self data)). rewrite dkeys_strip. apply NoDup_app_disj; [exact Hnd| |].
    - unfold extra_items, diffl. apply NoDup_filter, NoDup_dedup.
    - intros x Hx. unfold extra_items. rewrite in_diffl, dkeys_strip. tauto.
  Qed.
  Lemma closed_prepare data : closed (prepare data).
  Proof.
    intros x y He. apply dkeys_prepare. apply dep_edge_prepare in He as [He _]. right; eauto.
  Qed.

  Lemma toposort_peel data : toposort data = peel (S (List.length (prepare data))) (prepare data).
  Proof. destruct data; reflexivity. Qed.

  Lemma toposort_ok data layers : NoDup (dkeys data) -> toposort data = Ok layers ->
    NoDup (concat layers) /\ (forall x, In x (concat layers) <-> node data x) /\
    (forall i L x y, nth_error layers i = Some L -> In x L -> proper_edge data x y ->
       exists j L', j < i /\ nth_error layers j = Some L' /\ In y L') /\
    (forall L, In L layers -> L <> []).
  Proof.
    intros Hnd Ht. rewrite toposort_peel in Ht.
    apply peel_ok in Ht as (Hp & Hl & Hne); [|apply NoDup_prepare; exact Hnd|apply closed_prepare].
    repeat split.
    - eapply Permutation_NoDup; [symmetry; exact Hp|apply NoDup_prepare; exact Hnd].
    - intros Hx. apply dkeys_prepare. eapply Permutation_in; [exact Hp|exact Hx].
    - intros Hx. apply dkeys_prepare in Hx. eapply Permutation_in; [symmetry; exact Hp|exact Hx].
    - intros i L x y Hi Hx He. apply (Hl i L x y Hi Hx). apply dep_edge_prepare; exact He.
    - exact Hne.
  Qed.

  Lemma toposort_total data :
    (exists layers, toposort data = Ok layers) \/ toposort data = Raise CircularDependencyError.
  Proof. rewrite toposort_peel. apply peel_not_fuel. lia. Qed.

  Lemma toposort_circular_iff data : NoDup (dkeys data) ->
    toposort data = Raise CircularDependencyError <-> exists x, clos_trans A (proper_edge data) x x.
  Proof.
    intros Hnd. split.
    - rewrite toposort_peel. intros Hp. apply peel_circular in Hp as (x & Hx); [|apply closed_prepare].
      exists x. eapply clos_trans_mono; [|exact Hx]. intros a b; apply dep_edge_prepare.
    - intros (x & Hx). destruct (toposort_total data) as [(ls & Hls)|He]; [|exact He]. exfalso.
      rewrite toposort_peel in Hls.
      apply peel_ok in Hls as (Hp & Hl & _); [|apply NoDup_prepare; exact Hnd|apply closed_prepare].
      apply (layered_acyclic (prepare data) ls) with (x := x).
      + eapply Permutation_NoDup; [symmetry; exact Hp|apply NoDup_prepare; exact Hnd].
      + intros y Hy. eapply Permutation_in; [symmetry; exact Hp|exact Hy].
      + exact Hl.
      + eapply clos_trans_mono; [|exact Hx]. intros a b; apply dep_edge_prepare.
  Qed.

  (** layer 0 = the symbols without proper dependencies *)
  Lemma toposort_layer0 data L rest : NoDup (dkeys data) -> toposort data = Ok (L :: rest) ->
    forall x, In x L <-> node data x /\ forall y, ~ proper_edge data x y.
  Proof.
    intros Hnd Ht x. pose proof (toposort_ok data _ Hnd Ht) as (Hndc & Hnode & Hlay & _).
    split.
    - intros Hx. split; [apply Hnode; simpl; apply in_or_app; auto|]. intros y Hy.
      destruct (Hlay 0 L x y eq_refl Hx Hy) as (j & _ & Hj & _). lia.
    - intros [Hn Hno]. rewrite toposort_peel in Ht. simpl in Ht.
      assert (Hr : In x (ready (prepare data))).
      { apply in_ready. assert (Hk := proj2 (dkeys_prepare data x) Hn).
        apply in_map_iff in Hk as ([k ds] & He & Hin). simpl in He; subst k.
        destruct ds as [|y ds]; [exact Hin|]. exfalso. apply (Hno y). apply dep_edge_prepare.
        exists (y :: ds); split; [exact Hin|left; reflexivity]. }
      destruct (ready (prepare data)) as [|x0 L0] eqn:HL; [contradiction|].
      apply bind_Ok in Ht as (r & _ & Hq). inv Hq. exact Hr.
  Qed.
End TopoFacts.
