(** * CachedFacts: proofs about cached properties and model pickling. *)
From Verif Require Import PyBase PyFacts Cached CachedSpec.

Lemma append_inj (p a b : string) : (p ++ a)%string = (p ++ b)%string -> a = b.
Proof. induction p as [|c p IH]; simpl; intros H; [exact H|]. injection H as H. auto. Qed.
Lemma prefix_append p a : String.prefix p (p ++ a) = true.
Proof. induction p as [|c p IH]; simpl; [destruct a; reflexivity|]. destruct (ascii_dec c c) as [_|N]; [exact IH|contradiction]. Qed.
Lemma cache_attr_inj a b : cache_attr a = cache_attr b -> a = b.
Proof. unfold cache_attr. intros H. apply append_inj in H. apply (append_inj "_") in H. exact H. Qed.
Lemma cache_attr_prefix a : String.prefix base_str (cache_attr a) = true.
Proof. apply prefix_append. Qed.

Lemma NoDup_map_filter' {A B} (f : A -> B) (g : A -> bool) l : NoDup (map f l) -> NoDup (map f (filter g l)).
Proof.
  induction l as [|x l IH]; simpl; intros H; [constructor|]. inversion H as [|? ? Hx Hl]; subst. destruct (g x); simpl; [|auto]. constructor; [|auto].
  intros Hin. apply Hx. apply in_map_iff in Hin as (y & <- & Hy). apply filter_In in Hy as [Hy _]. apply in_map. exact Hy.
Qed.

Section Facts.
  Context {V : Type}.
  Variable K : klass (V := V).
  Notation st := (ostate (V := V)).

  (** What a read does to the object. *)
  Definition grows (s s' : st) : Prop :=
    (forall b v, dget (attrs s) (cache_attr b) = Some v -> dget (attrs s') (cache_attr b) = Some v) /\
    (forall b, (forall p, b <> cache_attr p) -> dget (attrs s') b = dget (attrs s) b) /\
    exists l, log s' = log s ++ l.
  Lemma grows_refl s : grows s s.
  Proof using. split; [auto|]. split; [auto|]. exists []. rewrite app_nil_r. reflexivity. Qed.
  Lemma grows_trans a b c : grows a b -> grows b c -> grows a c.
  Proof using.
    intros (A1 & A2 & l1 & A3) (B1 & B2 & l2 & B3). split; [auto|]. split; [intros; rewrite B2, A2; auto|].
    exists (l1 ++ l2). rewrite B3, A3, app_assoc. reflexivity.
  Qed.

  Lemma run_grows (get : string -> st -> res V * st) : (forall a s, grows s (snd (get a s))) ->
    forall b s, grows s (snd (run get b s)).
  Proof using.
    intros Hg. induction b as [r|a k IH]; intros s; simpl; [apply grows_refl|].
    specialize (Hg a s). destruct (get a s) as [r s'] eqn:E. simpl in Hg. eapply grows_trans; [exact Hg|]. apply IH.
  Qed.

  Lemma getattr_grows fuel : forall a s, grows s (snd (getattr K fuel a s)).
  Proof using.
    induction fuel as [|f IH]; intros a s; simpl; [apply grows_refl|].
    destruct (dget K a) as [body|]; [|apply grows_refl].
    destruct (dget (attrs s) (cache_attr a)) as [v|] eqn:Ec; [apply grows_refl|].
    pose proof (run_grows (getattr K f) IH body {| attrs := attrs s; log := log s ++ [a] |}) as Hr.
    destruct (run _ body _) as [[v|e] s'] eqn:E; simpl in *.
    - destruct Hr as (H1 & H2 & l & H3). simpl in *. split; [|split].
      + intros b w Hb. simpl. rewrite dget_dset. destruct (eq_dec (cache_attr b) (cache_attr a)) as [Eb|_]; [|auto].
        rewrite Eb in Hb. congruence.
      + intros b Hb. simpl. rewrite dget_dset. destruct (eq_dec b (cache_attr a)) as [Eb|_]; [exfalso; exact (Hb a Eb)|auto].
      + exists ([a] ++ l). simpl. rewrite H3, <- app_assoc. reflexivity.
    - destruct Hr as (H1 & H2 & l & H3). simpl in *. split; [exact H1|]. split; [exact H2|].
      exists ([a] ++ l). rewrite H3, <- app_assoc. reflexivity.
  Qed.

  (** A successful read leaves the value in the cache. *)
  Lemma getattr_caches fuel a s v s' body : dget K a = Some body -> getattr K fuel a s = (Ok v, s') ->
    dget (attrs s') (cache_attr a) = Some v.
  Proof using.
    intros Hk H. destruct fuel as [|f]; simpl in H; [discriminate|]. rewrite Hk in H.
    destruct (dget (attrs s) (cache_attr a)) as [w|] eqn:Ec; [injection H as <- <-; exact Ec|].
    destruct (run _ body _) as [[w|e] s1]; [|discriminate]. injection H as <- <-. simpl. rewrite dget_dset.
    destruct (eq_dec (cache_attr a) (cache_attr a)); [reflexivity|contradiction].
  Qed.
  Lemma getattr_cached fuel a s v body : dget K a = Some body -> dget (attrs s) (cache_attr a) = Some v ->
    getattr K (S fuel) a s = (Ok v, s).
  Proof using. intros Hk Hc. simpl. rewrite Hk, Hc. reflexivity. Qed.

  (** Operations that leave the cache of [a] alone: no [del obj.a] and no direct
      assignment to, or deletion of, the slots [_cached..]. *)
  Definition leaves (a : string) (o : op (V := V)) : Prop :=
    match o with
    | ORead _ => True
    | ODel b => b <> a /\ (dget K b = None -> String.prefix base_str b = false)
    | OSet b _ => dget K b = None -> String.prefix base_str b = false
    end.

  Lemma not_prefix_cache b p : String.prefix base_str b = false -> b <> cache_attr p.
  Proof using. intros H ->. rewrite cache_attr_prefix in H. discriminate. Qed.

  Lemma exec_keeps fuel a o s v : leaves a o -> dget (attrs s) (cache_attr a) = Some v ->
    dget (attrs (exec K fuel o s)) (cache_attr a) = Some v.
  Proof using.
    intros Hl Hc. destruct o as [b|b|b w]; simpl in *.
    - apply (getattr_grows fuel b s). exact Hc.
    - destruct Hl as [Hn Hp]. unfold delattr. destruct (dget K b) as [body|] eqn:Ek; simpl.
      + rewrite dget_ddel. destruct (eq_dec (cache_attr a) (cache_attr b)) as [E|_]; [|exact Hc].
        apply cache_attr_inj in E. congruence.
      + destruct (dget (attrs s) b) as [w|]; simpl; [|exact Hc]. rewrite dget_ddel.
        destruct (eq_dec (cache_attr a) b) as [E|_]; [|exact Hc]. symmetry in E. apply (not_prefix_cache b a (Hp eq_refl)) in E. contradiction.
    - unfold setattr. destruct (dget K b) as [body|] eqn:Ek; simpl; [exact Hc|]. rewrite dget_dset.
      destruct (eq_dec (cache_attr a) b) as [E|_]; [|exact Hc]. symmetry in E. apply (not_prefix_cache b a (Hl eq_refl)) in E. contradiction.
  Qed.

  (** While [a] is cached, [a] is not computed. *)
  Lemma run_no_compute (get : string -> st -> res V * st) a :
    (forall b s v, dget (attrs s) (cache_attr a) = Some v ->
       dget (attrs (snd (get b s))) (cache_attr a) = Some v /\ computed a (log (snd (get b s))) = computed a (log s)) ->
    forall b s v, dget (attrs s) (cache_attr a) = Some v -> computed a (log (snd (run get b s))) = computed a (log s).
  Proof using.
    intros Hg. induction b as [r|c k IH]; intros s v Hc; simpl; [reflexivity|].
    destruct (Hg c s v Hc) as [H1 H2]. destruct (get c s) as [r s'] eqn:E. simpl in *. rewrite (IH r s' v H1). exact H2.
  Qed.
  Lemma computed_app a l m : computed a (l ++ m) = computed a l + computed a m.
  Proof using. apply count_occ_app. Qed.
  Lemma getattr_no_compute fuel a : forall b s v, dget (attrs s) (cache_attr a) = Some v ->
    dget (attrs (snd (getattr K fuel b s))) (cache_attr a) = Some v /\ computed a (log (snd (getattr K fuel b s))) = computed a (log s).
  Proof using.
    induction fuel as [|f IH]; intros b s v Hc; [simpl; auto|].
    split; [apply (getattr_grows (S f) b s); exact Hc|]. simpl.
    destruct (dget K b) as [body|] eqn:Ek; [|reflexivity].
    destruct (dget (attrs s) (cache_attr b)) as [w|] eqn:Eb; [reflexivity|].
    assert (Hne : a <> b) by (intros ->; congruence).
    pose proof (run_no_compute (getattr K f) a IH body {| attrs := attrs s; log := log s ++ [b] |} v Hc) as Hr.
    simpl in Hr. destruct (run _ body _) as [[w|e] s']; simpl in *; rewrite Hr, computed_app; unfold computed; simpl;
      destruct (string_dec b a); try congruence; lia.
  Qed.

  Lemma exec_no_compute fuel a o s v : dget (attrs s) (cache_attr a) = Some v ->
    computed a (log (exec K fuel o s)) = computed a (log s).
  Proof using.
    intros Hc. destruct o as [b|b|b w]; simpl.
    - apply (getattr_no_compute fuel a b s v Hc).
    - unfold delattr. destruct (dget K b); simpl; [reflexivity|]. destruct (dget (attrs s) b); reflexivity.
    - unfold setattr. destruct (dget K b); reflexivity.
  Qed.

  Lemma history_stable fuel a body v : dget K a = Some body -> forall h s, Forall (leaves a) h ->
    dget (attrs s) (cache_attr a) = Some v ->
    let s' := history K fuel h s in
    (forall n, getattr K (S n) a s' = (Ok v, s')) /\ computed a (log s') = computed a (log s).
  Proof using.
    intros Hk. induction h as [|o h IH]; intros s Hl Hc.
    - cbn [history fold_left]. split; [intros n; apply (getattr_cached n a s v body); auto|reflexivity].
    - inversion Hl as [|? ? H1 H2]; subst. cbn [history fold_left].
      destruct (IH (exec K fuel o s) H2 (exec_keeps fuel a o s v H1 Hc)) as [A B]. split; [exact A|].
      cbv zeta in B. unfold history in B. rewrite B. apply (exec_no_compute fuel a o s v Hc).
  Qed.

  Lemma read_once fuel a body s v s1 h : dget K a = Some body -> getattr K fuel a s = (Ok v, s1) -> Forall (leaves a) h ->
    let s2 := history K fuel h s1 in
    (forall n, getattr K (S n) a s2 = (Ok v, s2)) /\ computed a (log s2) = computed a (log s1).
  Proof using.
    intros Hk Hg Hl. apply (history_stable fuel a body v Hk h s1 Hl). eapply getattr_caches; eauto.
  Qed.

  (** *** Classes without circular properties *)
  Variable rank : string -> nat.
  Hypothesis Hrank : ranked K rank.

  Lemma run_log n (get : string -> st -> res V * st) body :
    (forall b s, may_read body b -> exists l, log (snd (get b s)) = log s ++ l /\ Forall (fun c => rank c < n) l) ->
    forall s, exists l, log (snd (run get body s)) = log s ++ l /\ Forall (fun c => rank c < n) l.
  Proof using.
    induction body as [r|a k IH]; intros Hg s; simpl.
    - exists []. rewrite app_nil_r. auto.
    - destruct (Hg a s (MR_here a k)) as (l1 & E1 & F1). destruct (get a s) as [r s'] eqn:E. simpl in E1.
      destruct (IH r (fun b s0 Hb => Hg b s0 (MR_later a k r b Hb)) s') as (l2 & E2 & F2).
      exists (l1 ++ l2). rewrite E2, E1, app_assoc. split; [reflexivity|]. apply Forall_app; auto.
  Qed.
  Lemma getattr_log fuel : forall a s, exists l, log (snd (getattr K fuel a s)) = log s ++ l /\ Forall (fun c => rank c <= rank a) l.
  Proof using Hrank.
    induction fuel as [|f IH]; intros a s; simpl; [exists []; rewrite app_nil_r; auto|].
    destruct (dget K a) as [body|] eqn:Ek; [|exists []; simpl; rewrite app_nil_r; auto].
    destruct (dget (attrs s) (cache_attr a)) as [w|]; [exists []; simpl; rewrite app_nil_r; auto|].
    destruct (run_log (rank a) (getattr K f) body) with (s := {| attrs := attrs s; log := log s ++ [a] |}) as (l & E & F).
    - intros b s0 Hb. destruct (IH b s0) as (l & E & F). exists l. split; [exact E|].
      eapply Forall_impl; [|exact F]. intros c Hc. simpl in Hc. specialize (Hrank a body b Ek Hb). lia.
    - exists (a :: l). simpl in E. split.
      + destruct (run _ body _) as [[v|e] s']; simpl in *; rewrite E, <- app_assoc; reflexivity.
      + constructor; [lia|]. eapply Forall_impl; [|exact F]. intros; simpl in *; lia.
  Qed.

  (** An uncached property is computed exactly once by a read. *)
  Lemma read_computes_once fuel a body s : dget K a = Some body -> dget (attrs s) (cache_attr a) = None ->
    computed a (log (snd (getattr K (S fuel) a s))) = S (computed a (log s)).
  Proof using Hrank.
    intros Ek Hc. simpl. rewrite Ek, Hc.
    destruct (run_log (rank a) (getattr K fuel) body) with (s := {| attrs := attrs s; log := log s ++ [a] |}) as (l & E & F).
    - intros b s0 Hb. destruct (getattr_log fuel b s0) as (l & E & F). exists l. split; [exact E|].
      eapply Forall_impl; [|exact F]. intros c Hr. simpl in Hr. specialize (Hrank a body b Ek Hb). lia.
    - simpl in E.
      assert (Hl : computed a l = 0).
      { apply count_occ_not_In. intros Hin. rewrite Forall_forall in F. specialize (F a Hin). simpl in F. lia. }
      assert (Hg : computed a (log s ++ [a] ++ l) = S (computed a (log s))).
      { rewrite !computed_app, Hl. unfold computed at 2. simpl. destruct (string_dec a a); [lia|contradiction]. }
      destruct (run _ body _) as [[v|e] s']; simpl in *; rewrite E, <- app_assoc; exact Hg.
  Qed.

  (** *** Caches hold what would be computed *)
  Hypothesis Hclean : forall a body b, dget K a = Some body -> may_read body b -> String.prefix base_str b = false.

  Lemma run_plain_ext (g1 g2 : string -> res V) body : (forall b, may_read body b -> g1 b = g2 b) -> run_plain g1 body = run_plain g2 body.
  Proof using.
    induction body as [r|a k IH]; intros H; simpl; [reflexivity|]. rewrite (H a (MR_here a k)). apply IH.
    intros b Hb. apply H. eapply MR_later; exact Hb.
  Qed.
  (** Enough fuel, and only ordinary attributes matter. *)
  Lemma plain_ext : forall f f' d d' a, rank a < f -> rank a < f' -> String.prefix base_str a = false ->
    (forall b, ordinary K b -> dget d b = dget d' b) -> plain K f d a = plain K f' d' a.
  Proof using Hrank Hclean.
    induction f as [|f IH]; intros f' d d' a H1 H2 Hp He; [lia|]. destruct f' as [|f']; [lia|]. simpl.
    destruct (dget K a) as [body|] eqn:Ek.
    - apply run_plain_ext. intros b Hb. specialize (Hrank a body b Ek Hb). apply IH; [lia|lia| |exact He]. eapply Hclean; eauto.
    - rewrite (He a); [reflexivity|]. split; auto.
  Qed.

  Definition coherent (s : st) : Prop := forall a body v, dget K a = Some body -> String.prefix base_str a = false ->
    dget (attrs s) (cache_attr a) = Some v -> forall f, rank a < f -> plain K f (attrs s) a = Ok v.
  Definition same_ordinary (s s' : st) : Prop := forall b, ordinary K b -> dget (attrs s') b = dget (attrs s) b.

  Lemma run_coherent (f : nat) body :
    (forall b s, may_read body b -> coherent s -> let p := getattr K f b s in
       fst p = plain K f (attrs s) b /\ coherent (snd p) /\ same_ordinary s (snd p)) ->
    (forall b, may_read body b -> String.prefix base_str b = false /\ rank b < f) ->
    forall s, coherent s -> let p := run (getattr K f) body s in
      fst p = run_plain (plain K f (attrs s)) body /\ coherent (snd p) /\ same_ordinary s (snd p).
  Proof using Hrank Hclean.
    induction body as [r|a k IH]; intros Hg Hb s Hc; simpl; [split; [reflexivity|split; [exact Hc|intros b _; reflexivity]]|].
    destruct (Hg a s (MR_here a k) Hc) as (E & C1 & S1). destruct (getattr K f a s) as [r s'] eqn:Eg. simpl in *.
    subst r. destruct (IH (plain K f (attrs s) a) (fun b s0 Hr => Hg b s0 (MR_later a k _ b Hr)) (fun b Hr => Hb b (MR_later a k _ b Hr)) s' C1) as (E2 & C2 & S2).
    split; [|split; [exact C2|]].
    - rewrite E2. apply run_plain_ext. intros b Hr. destruct (Hb b (MR_later a k _ b Hr)). apply plain_ext; auto.
    - intros b Ho. rewrite S2, S1; auto.
  Qed.

  Lemma cache_ordinary a b : ordinary K b -> b <> cache_attr a.
  Proof using. intros [_ H]. apply not_prefix_cache. exact H. Qed.

  Lemma getattr_coherent : forall f a s, rank a < f -> String.prefix base_str a = false -> coherent s ->
    let p := getattr K f a s in fst p = plain K f (attrs s) a /\ coherent (snd p) /\ same_ordinary s (snd p).
  Proof using Hrank Hclean.
    induction f as [|f IH]; intros a s Hf Hp Hc; [lia|]. simpl.
    destruct (dget K a) as [body|] eqn:Ek; [|simpl; split; [reflexivity|split; [exact Hc|intros b _; reflexivity]]].
    destruct (dget (attrs s) (cache_attr a)) as [v|] eqn:Ec.
    - simpl. split; [|split; [exact Hc|intros b _; reflexivity]].
      pose proof (Hc a body v Ek Hp Ec (S f) Hf) as H. simpl in H. rewrite Ek in H. symmetry. exact H.
    - set (s0 := {| attrs := attrs s; log := log s ++ [a] |}).
      destruct (run_coherent f body) with (s := s0) as (E & C & S).
      + intros b s1 Hb Hc1. apply IH; [specialize (Hrank a body b Ek Hb); lia|eapply Hclean; eauto|exact Hc1].
      + intros b Hb. split; [eapply Hclean; eauto|]. specialize (Hrank a body b Ek Hb); lia.
      + exact Hc.
      + destruct (run (getattr K f) body s0) as [[v|e] s'] eqn:Er; simpl in *.
        * split; [exact E|].
          assert (So : same_ordinary s {| attrs := dset (attrs s') (cache_attr a) v; log := log s' |}).
          { intros b Ho. simpl. rewrite dget_dset. destruct (eq_dec b (cache_attr a)) as [Eb|_]; [exfalso; exact (cache_ordinary a b Ho Eb)|]. apply S; exact Ho. }
          split; [|exact So]. intros b body' w Hk Hpb Hw f' Hf'. simpl in Hw. rewrite dget_dset in Hw.
          destruct (eq_dec (cache_attr b) (cache_attr a)) as [Eb|_].
          -- apply cache_attr_inj in Eb. subst b. injection Hw as <-.
             assert (Hpl : plain K (Datatypes.S f) (attrs s) a = Ok v) by (simpl; rewrite Ek; symmetry; exact E).
             rewrite <- Hpl. apply plain_ext; auto.
          -- rewrite <- (C b body' w Hk Hpb Hw f' Hf'). apply plain_ext; auto. intros c Hcc. simpl. rewrite dget_dset.
             destruct (eq_dec c (cache_attr a)) as [Eb|_]; [exfalso; exact (cache_ordinary a c Hcc Eb)|reflexivity].
        * split; [exact E|]. split; [exact C|exact S].
  Qed.

  (** Histories of reads and deletions of cached properties *)
  Definition cache_op (o : op (V := V)) : Prop :=
    match o with
    | ORead a => String.prefix base_str a = false
    | ODel a => dget K a <> None
    | OSet _ _ => False
    end.
  Lemma exec_coherent fuel o s : (forall a, rank a < fuel) -> cache_op o -> coherent s ->
    coherent (exec K fuel o s) /\ same_ordinary s (exec K fuel o s) /\ (forall b, dget (attrs s) b = None -> String.prefix base_str b = false -> dget (attrs (exec K fuel o s)) b = None).
  Proof using Hrank Hclean.
    intros Hf Ho Hc. destruct o as [a|a|a v]; simpl in *.
    - destruct (getattr_coherent fuel a s (Hf a) Ho Hc) as (_ & C & S). split; [exact C|]. split; [exact S|].
      intros b Hb Hp. destruct (getattr_grows fuel a s) as (_ & H & _). rewrite H; [exact Hb|]. intros p. apply not_prefix_cache. exact Hp.
    - unfold delattr. destruct (dget K a) as [body|] eqn:Ek; [|contradiction]. simpl.
      assert (So : same_ordinary s {| attrs := ddel (attrs s) (cache_attr a); log := log s |}).
      { intros b Hb. simpl. rewrite dget_ddel. destruct (eq_dec b (cache_attr a)) as [Eb|_]; [exfalso; exact (cache_ordinary a b Hb Eb)|reflexivity]. }
      split; [|split; [exact So|]].
      + intros b body' w Hk Hp Hw f Hfb. simpl in Hw. rewrite dget_ddel in Hw. destruct (eq_dec (cache_attr b) (cache_attr a)); [discriminate|].
        rewrite <- (Hc b body' w Hk Hp Hw f Hfb). apply plain_ext; auto.
      + intros b Hb Hp. rewrite dget_ddel. destruct (eq_dec b (cache_attr a)); [reflexivity|exact Hb].
    - contradiction.
  Qed.
  Lemma history_coherent fuel h : (forall a, rank a < fuel) -> Forall cache_op h -> forall s, coherent s ->
    coherent (history K fuel h s) /\ same_ordinary s (history K fuel h s).
  Proof using Hrank Hclean.
    intros Hf Hh. induction Hh as [|o h Ho Hh IH]; intros s Hc.
    - split; [exact Hc|intros b _; reflexivity].
    - destruct (exec_coherent fuel o s Hf Ho Hc) as (C & S & _). destruct (IH _ C) as [C' S']. split; [exact C'|].
      intros b Hb. unfold history in *. simpl. rewrite S', S; auto.
  Qed.

  Lemma no_cache_coherent s : (forall a, dget (attrs s) (cache_attr a) = None) -> coherent s.
  Proof using. intros H a body v _ _ Hv. rewrite H in Hv. discriminate. Qed.

  (** *** Pickling *)
  Lemma dget_filter_key (P : string -> bool) (d : dict string V) a :
    dget (filter (fun kv => P (fst kv)) d) a = if P a then dget d a else None.
  Proof using.
    induction d as [|[k v] d IH]; simpl; [destruct (P a); reflexivity|].
    destruct (eq_dec a k) as [->|Hn].
    - destruct (P k) eqn:Ep; simpl.
      + destruct (eq_dec k k); [reflexivity|contradiction].
      + rewrite IH. reflexivity.
    - destruct (P k); simpl; [destruct (eq_dec a k); [contradiction|]|]; exact IH.
  Qed.

  Variable make_sig : dict string V -> res V.
  Hypothesis Hsig : forall d d', (forall b, ordinary K b -> b <> sig_attr -> dget d b = dget d' b) -> make_sig d = make_sig d'.
  Hypothesis Hord : ordinary K sig_attr.

  Lemma roundtrip_attrs s sig : NoDup (dkeys (attrs s)) -> dget (attrs s) sig_attr = Some sig -> make_sig (attrs s) = Ok sig ->
    exists s', pickle_roundtrip make_sig s = Ok s' /\
      (forall b, dget (attrs s') b = if String.prefix base_str b then None else dget (attrs s) b) /\ log s' = [].
  Proof using Hsig Hord.
    intros Hnd Hs Hm. unfold pickle_roundtrip, getstate, setstate. rewrite Hs. cbn [bind].
    set (state := filter (fun kv => negb (String.prefix base_str (fst kv))) (ddel (attrs s) sig_attr)).
    assert (Hndel : NoDup (dkeys (ddel (attrs s) sig_attr))) by (unfold ddel; apply NoDup_map_filter'; exact Hnd).
    assert (Hns : NoDup (dkeys state)) by (apply (NoDup_map_filter' fst (fun kv => negb (String.prefix base_str (fst kv)))); exact Hndel).
    assert (Hg : forall b, dget (dupdate [] state) b = if String.prefix base_str b then None else if eq_dec b sig_attr then None else dget (attrs s) b).
    { intros b. change (dupdate [] state) with (dict_of state). rewrite dict_of_nodup by exact Hns. unfold state.
      rewrite (dget_filter_key (fun k => negb (String.prefix base_str k))). destruct (String.prefix base_str b); simpl; [reflexivity|].
      rewrite dget_ddel. reflexivity. }
    assert (Em : make_sig (dupdate [] state) = Ok sig).
    { rewrite <- Hm. apply Hsig. intros b [_ Hb] Hne. rewrite Hg, Hb. destruct (eq_dec b sig_attr); [contradiction|reflexivity]. }
    rewrite Em. cbn [bind]. eexists. split; [reflexivity|]. split; [|reflexivity]. intros b. simpl. rewrite dget_dset, Hg.
    destruct (eq_dec b sig_attr) as [->|Hne].
    - destruct Hord as [_ ->]. symmetry. exact Hs.
    - reflexivity.
  Qed.

  (** Reading anything from the copy gives what the original gives. *)
  Lemma roundtrip_reads fuel s s' a : (forall a, rank a < fuel) -> coherent s ->
    (forall b, dget (attrs s') b = if String.prefix base_str b then None else dget (attrs s) b) ->
    String.prefix base_str a = false -> fst (getattr K fuel a s') = fst (getattr K fuel a s).
  Proof using Hrank Hclean.
    intros Hf Hc Hs Hp.
    assert (Hc' : coherent s') by (apply no_cache_coherent; intros b; rewrite Hs, cache_attr_prefix; reflexivity).
    destruct (getattr_coherent fuel a s (Hf a) Hp Hc) as (-> & _). destruct (getattr_coherent fuel a s' (Hf a) Hp Hc') as (-> & _).
    apply plain_ext; auto. intros b [_ Hb]. rewrite Hs, Hb. reflexivity.
  Qed.
End Facts.
