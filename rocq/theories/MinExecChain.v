(** * MinExecChain: executing a chain again. *)
From Coq Require Import Reals Lia.
From Verif Require Import PyBase PyFacts Signature SignatureFacts Expr NumPy Model Objective Minimizer MinSpec MinFacts MinLemmas MinObj MinObjSpec MinObjFacts MinObjMain MinExec MinExecSpec MinExecFacts MinExecMain MinExecAgain.
Local Open Scope string_scope.
Local Open Scope list_scope.

Section Chain.
  Context {raw U : Type} (scipy : seen_call raw U -> res answer).
  Notation options := (options U).
  Notation store := (store U).
  Notation scall := (scall raw U).
  Notation object := (object raw).
  Notation attrs := (attrs raw).
  Implicit Types (kw d : options) (st : store).
  Ltac inv H := match type of H with bind ?X _ = _ => let e := fresh "E" in destruct X as [?|] eqn:e; [|discriminate H]; cbn [bind] in H end.

  Lemma run_single n h (o : object) st kw r : class_of o <> ChainedMinimizer -> run scipy n h o st kw = Ok r ->
    exists c a, one_call h o st kw = Ok (oc_store r, c) /\ scipy (see (oc_store r) c) = Ok a /\ r = {| oc_store := oc_store r; oc_object := o; oc_calls := [see (oc_store r) c]; oc_answer := a |}.
  Proof using.
    intros Hc H. destruct n as [|n]; [discriminate|]. cbn [run] in H. destruct o as [c self]. cbn [class_of] in Hc.
    assert (H' : ('(st, c1) <- one_call h (Obj c self) st kw ;; a <- scipy (see st c1) ;; Ok {| oc_store := st; oc_object := Obj c self; oc_calls := [see st c1]; oc_answer := a |}) = Ok r) by (destruct c; try exact H; congruence). clear H.
    match type of H' with bind ?X _ = _ => destruct X as [[st1 c1]|] eqn:E; [|discriminate H']; cbn [bind] in H' end. inv H'. injection H' as <-. cbn [oc_store]. exists c1, a. auto.
  Qed.
  Lemma run_single_again n h (o : object) s kw s' c a : class_of o <> ChainedMinimizer -> one_call h o s kw = Ok (s', c) -> scipy (see s' c) = Ok a ->
    run scipy (S n) h o s kw = Ok {| oc_store := s'; oc_object := o; oc_calls := [see s' c]; oc_answer := a |}.
  Proof using.
    intros Hc H Ha. cbn [run]. destruct o as [cl self]. cbn [class_of] in Hc.
    transitivity ('(st, c) <- one_call h (Obj cl self) s kw ;; a <- scipy (see st c) ;; Ok {| oc_store := st; oc_object := Obj cl self; oc_calls := [see st c]; oc_answer := a |}); [destruct cl; try reflexivity; congruence|].
    rewrite H. cbn [bind]. rewrite Ha. reflexivity.
  Qed.
  Lemma dset_same {V} (d : dict string V) n v : dget d n = Some v -> dset d n v = d.
  Proof using. induction d as [|[k w] d IH]; cbn; [discriminate|]. destruct (eq_dec n k) as [->|]; [congruence|]. intros H. rewrite IH by exact H. reflexivity. Qed.
  Lemma set_guesses_twice (m : object) g : set_guesses (set_guesses m g) g = set_guesses m g.
  Proof using. destruct m as [c d]. cbn [set_guesses]. f_equal. apply dset_same, dget_dset_eq. Qed.
  Lemma class_set_guesses (m : object) g : class_of (set_guesses m g) = class_of m.
  Proof using. destruct m. reflexivity. Qed.
  Lemma parameters_set_guesses (m : object) g : params_attr (attrs_of (set_guesses m g)) "parameters" = params_attr (attrs_of m) "parameters".
  Proof using. destruct m as [c d]. cbn [set_guesses attrs_of]. unfold params_attr, getattr. rewrite dget_dset_ne by discriminate. reflexivity. Qed.

  (** The options of a minimizer of the chain, as they are before the chain is executed. *)
  Context (bound : options) (D : string -> options) (N : nat).
  Definition root a : Prop := exists n, dget bound n = Some (ODict a).
  Hypothesis (g1 : forall n b, uses (D n) b -> b < N) (g2 : forall n b, uses (D n) b -> ~ root b) (g3 : forall n1 n2 b, n1 <> n2 -> uses (D n1) b -> uses (D n2) b -> False) (g4 : forall a, root a -> a < N).
  Definition opened_options st (p : sparam) : res options := match dget bound (sp_name p) with Some v => '(_, d) <- read st v ;; Ok d | None => Ok [] end.
  Definition expected st (names : signature) : Prop := forall p d, In p names -> opened_options st p = Ok d -> d = D (sp_name p).

  Lemma opened_options_ext s st p : (forall b, root b -> nth_error s b = nth_error st b) -> opened_options s p = opened_options st p.
  Proof using. intros H. unfold opened_options. destruct (dget bound (sp_name p)) as [v|] eqn:E; [|reflexivity]. destruct v; try reflexivity. cbn [read]. rewrite H by (exists (sp_name p); exact E). reflexivity. Qed.

  Lemma chain_again n h names : forall l st guess st' l' calls answers, NoDup (map sp_name names) -> (forall m, In m l -> class_of m <> ChainedMinimizer) -> expected st names -> N <= List.length st ->
    chain_run (run scipy (S n) h) h bound l names st guess = Ok (st', l', calls, answers) ->
    List.length st <= List.length st' /\ (forall b, b < List.length st -> (forall p, In p names -> ~ uses (D (sp_name p)) b) -> nth_error st' b = nth_error st b) /\
    (forall s, (forall b, root b \/ (exists p, In p names /\ uses (D (sp_name p)) b) -> nth_error s b = nth_error st' b) ->
      exists s', chain_run (run scipy (S n) h) h bound l' names s guess = Ok (s', l', calls, answers) /\ List.length s <= List.length s' /\ (forall b, b < List.length s -> nth_error s' b = nth_error s b)).
  Proof using g1 g2 g3 g4.
    induction names as [|p names IH]; intros l st guess st' l' calls answers Hnd Hfl Hex HN H.
    { assert (E : st' = st /\ l' = l /\ calls = [] /\ answers = []) by (destruct l; cbn [chain_run] in H; injection H as <- <- <- <-; auto). destruct E as (-> & -> & -> & ->). split; [lia|]. split; [reflexivity|]. intros s _. exists s. split; [destruct l; reflexivity|]. split; [lia|reflexivity]. }
    destruct l as [|m l].
    { cbn [chain_run] in H. injection H as <- <- <- <-. split; [lia|]. split; [reflexivity|]. intros s _. exists s. split; [reflexivity|]. split; [lia|reflexivity]. }
    cbn [map] in Hnd. apply NoDup_cons_iff in Hnd as (Hnp & Hnd).
    cbn [chain_run] in H. fold (opened_options st p) in H. destruct (opened_options st p) as [d|] eqn:Ed; [|discriminate H]. cbn [bind] in H.
    pose proof (Hex p d (or_introl eq_refl) Ed) as HdD.
    match type of H with bind ?X _ = _ => destruct X as [r|] eqn:Er; [|discriminate H] end. cbn [bind] in H.
    assert (Hcl : class_of (set_guesses m guess) <> ChainedMinimizer) by (rewrite class_set_guesses; apply Hfl; left; reflexivity).
    destruct (run_single _ _ _ _ _ _ Hcl Er) as (c & a & Hone & Hsc & Hr).
    assert (Hw : within d st) by (intros b Hb; rewrite HdD in Hb; apply g1 in Hb; lia).
    destruct (repeats_call h _ st d _ c Hw Hone) as (HL & HO & HA). set (st1 := oc_store r) in *. clearbody st1.
    inv H. inv H. match type of H with bind ?X _ = _ => destruct X as [[[[st2 l2] calls2] answers2]|] eqn:E2; [|discriminate H] end. cbn [bind] in H. injection H as <- <- <- <-.
    rewrite Hr in E0. cbn [oc_store oc_answer] in E0. rewrite Hr. cbn [oc_object oc_calls oc_answer].
    assert (Hst1 : forall b, root b -> nth_error st1 b = nth_error st b).
    { intros b Hb. apply HO; [apply g4 in Hb; lia|]. rewrite HdD. intros Hu. exact (g2 _ _ Hu Hb). }
    assert (Hex1 : expected st1 names).
    { intros p' d' Hp' Hd'. rewrite (opened_options_ext st1 st p' Hst1) in Hd'. exact (Hex p' d' (or_intror Hp') Hd'). }
    assert (HN1 : N <= List.length st1) by lia.
    destruct (IH l st1 _ _ _ _ _ Hnd (fun m Hm => Hfl m (or_intror Hm)) Hex1 HN1 E2) as (IL & IO & IA); clear IH.
    split; [lia|]. split.
    { intros b Hb Hn. rewrite IO; [apply HO; [exact Hb|rewrite HdD; apply (Hn p (or_introl eq_refl))]|lia|intros p' Hp'; apply (Hn p' (or_intror Hp'))]. }
    intros s Hs.
    assert (Hrs : forall b, root b -> nth_error s b = nth_error st b).
    { intros b Hb. rewrite (Hs b (or_introl Hb)). rewrite IO; [apply Hst1; exact Hb|apply g4 in Hb; lia|intros p' _ Hu; exact (g2 _ _ Hu Hb)]. }
    destruct (HA s) as (s1 & c' & Hone' & Hsee & Hl1 & Hold1).
    { intros b Hb. rewrite HdD in Hb. rewrite (Hs b (or_intror (ex_intro _ p (conj (or_introl eq_refl) Hb)))). apply IO; [apply g1 in Hb; lia|].
      intros p' Hp' Hu. apply (g3 (sp_name p) (sp_name p') b); [intros Eq; apply Hnp; rewrite Eq; apply in_map; exact Hp'|exact Hb|exact Hu]. }
    destruct (IA s1) as (s2 & Hrun & Hl2 & Hold2).
    { intros b Hb. assert (Hb' : nth_error s b = nth_error st2 b) by (apply Hs; destruct Hb as [Hb|(p' & Hp' & Hu)]; [left; exact Hb|right; exists p'; split; [right; exact Hp'|exact Hu]]).
      rewrite <- Hb'. apply Hold1. apply nth_error_Some. rewrite Hb'. apply nth_error_Some. assert (b < N) by (destruct Hb as [Hb|(p' & _ & Hu)]; [apply g4; exact Hb|exact (g1 _ _ Hu)]). lia. }
    exists s2. split; [|split; [lia|intros b Hb; rewrite Hold2 by lia; apply Hold1; exact Hb]].
    cbn [chain_run]. fold (opened_options s p). rewrite (opened_options_ext s st p Hrs), Ed. cbn [bind]. rewrite set_guesses_twice.
    rewrite (run_single_again n h _ s d s1 c' a Hcl Hone') by (rewrite Hsee; exact Hsc). cbn [bind oc_answer oc_store oc_calls oc_object].
    rewrite parameters_set_guesses, E. cbn [bind]. rewrite E0. cbn [bind]. rewrite Hrun. cbn [bind]. rewrite Hsee. reflexivity.
  Qed.
End Chain.

Section Whole.
  Context {raw U : Type} (scipy : seen_call raw U -> res answer).
  Notation options := (options U).
  Notation store := (store U).
  Implicit Types (kw d : options) (st : store).
  Ltac inv H := match type of H with bind ?X _ = _ => let e := fresh "E" in destruct X as [?|] eqn:e; [|discriminate H]; cbn [bind] in H end.

  Lemma bind_kw_get (ps : list sparam) kw acc out n v : bind_kw false ps kw acc = Ok out -> dget out n = Some v -> dget acc n = Some v \/ dget kw n = Some v.
  Proof using.
    revert acc. induction ps as [|p ps IH]; intros acc H Hn; cbn [bind_kw] in H; [injection H as <-; auto|]. destruct (dget kw (sp_name p)) as [w|] eqn:E.
    - destruct (IH _ H Hn) as [Ha|Ha]; [|auto]. rewrite dget_app in Ha. destruct (dget acc n); [auto|]. cbn in Ha. destruct (eq_dec n (sp_name p)) as [->|]; [|discriminate]. right. congruence.
    - destruct (false || sp_default p); [|discriminate]. exact (IH _ H Hn).
  Qed.
  Lemma bound_get (s : signature) kw b n v : sig_bind s [] kw = Ok b -> dget b n = Some v -> dget kw n = Some v.
  Proof using.
    unfold sig_bind, sig_bind_gen. cbn [bind_pos bind]. intros H Hn. inv H. destruct (forallb _ _); [|discriminate]. injection H as <-. destruct (bind_kw_get _ _ _ _ _ _ E Hn) as [Ha|Ha]; [discriminate|exact Ha].
  Qed.

  Theorem chain_execute_again n h (self : attrs raw) st kw r l s :
    dget self "minimizers" = Some (VMins l) -> (forall m, In m l -> class_of m <> ChainedMinimizer) ->
    dget self "__signature__" = Some (VSignature s) -> chain_signature (map (fun o => py_name (class_of o)) l) = Ok s ->
    apart st kw -> run scipy n h (Obj ChainedMinimizer self) st kw = Ok r ->
    exists r', run scipy n h (oc_object r) (oc_store r) kw = Ok r' /\ oc_calls r' = oc_calls r /\ oc_answer r' = oc_answer r /\ oc_object r' = oc_object r.
  Proof using.
    intros Hl Hfl Hs Hcs (A1 & A2 & A3 & A4) H. destruct n as [|n]; [discriminate|]. cbn [run] in H. unfold getattr in H at 1 2. rewrite Hl, Hs in H. cbn [of_opt bind] in H.
    match type of H with bind ?X _ = _ => destruct X as [kv|] eqn:Ek; [|discriminate H] end. cbn [bind] in H. destruct kv; try discriminate H. match type of Ek with _ = Ok (VKwargs ?k) => rename k into kw0 end.
    match type of H with bind ?X _ = _ => destruct X as [bound|] eqn:Eb; [|discriminate H] end. cbn [bind] in H.
    match type of H with bind ?X _ = _ => destruct X as [guess|] eqn:Eg; [|discriminate H] end. cbn [bind] in H.
    match type of H with bind ?X _ = _ => destruct X as [[[[st2 l2] calls2] answers2]|] eqn:E2; [|discriminate H] end. cbn [bind] in H.
    match type of H with bind ?X _ = _ => destruct X as [final|] eqn:Ef; [|discriminate H] end. cbn [bind] in H.
    match type of H with bind ?X _ = _ => destruct X as [nit|] eqn:En; [|discriminate H] end. cbn [bind] in H.
    injection H as <-. cbn [oc_object oc_store oc_calls oc_answer].
    set (D := fun nm : string => match dget bound nm with Some (ODict a) => match nth_error st a with Some d => d | None => [] end | _ => [] end).
    assert (HD : forall nm b, uses (D nm) b -> exists a d, dget kw nm = Some (ODict a) /\ nth_error st a = Some d /\ uses d b).
    { intros nm b. unfold D. destruct (dget bound nm) as [v|] eqn:Ev; [|intros (? & [])]. destruct v; try (intros (? & [])). destruct (nth_error st a) as [d|] eqn:Ea; [|intros (? & [])]. intros Hu. exists a, d. split; [exact (bound_get _ _ _ _ _ Eb Ev)|]. auto. }
    assert (HRt : forall a, root bound a -> exists nm, dget kw nm = Some (ODict a)) by (intros a (nm & Hn); exists nm; exact (bound_get _ _ _ _ _ Eb Hn)).
    assert (Hn1 : exists n', n = S n').
    { destruct n as [|n']; [|exists n'; reflexivity]. exfalso. destruct l as [|m l]; [cbn in E2; injection E2 as <- <- <- <-; cbn in Ef; discriminate|]. destruct s as [|p s0]; [cbn in E2; injection E2 as <- <- <- <-; cbn in Ef; discriminate|].
      cbn [chain_run] in E2. match type of E2 with bind ?X _ = _ => destruct X; [|discriminate E2] end. discriminate E2. }
    destruct Hn1 as (n' & ->).
    assert (Hnd : NoDup (map sp_name s)).
    { set (nl := map (fun o => py_name (class_of o)) l) in *. destruct (in_dec (fun a b => bool_dec a b) (nodupb (chain_names nl)) [true]) as [Hi|Hi].
      - cbn in Hi. destruct Hi as [Hi|[]]. symmetry in Hi. apply nodupb_iff in Hi. destruct (proj1 (chain_signature_spec nl) Hi) as (s' & Hs' & Hm & _). rewrite Hcs in Hs'. injection Hs' as <-. rewrite Hm. exact Hi.
      - exfalso. rewrite (proj2 (chain_signature_spec nl)) in Hcs; [discriminate|]. intros Hi'. apply Hi. apply nodupb_iff in Hi'. rewrite Hi'. left. reflexivity. }
    pose proof (fun g1 g2 g3 g4 n5 n6 n7 n8 => chain_again scipy bound D (List.length st) g1 g2 g3 g4 n' h s l st guess st2 l2 calls2 answers2 n5 n6 n7 n8 E2) as HC. clear E2.
    destruct HC as (HL & HO & HA).
    { intros nm b Hu. destruct (HD nm b Hu) as (a & d & Hk & Ha & Hd). exact (A2 _ _ _ _ Hk Ha Hd). }
    { intros nm b Hu Hr. destruct (HD nm b Hu) as (a & d & Hk & Ha & Hd). destruct (HRt b Hr) as (nm' & Hn'). exact (A3 _ _ _ _ _ Hk Ha Hd Hn'). }
    { intros n1 n2 b Hne H1 H2. destruct (HD n1 b H1) as (a1 & d1 & Hk1 & Ha1 & Hd1). destruct (HD n2 b H2) as (a2 & d2 & Hk2 & Ha2 & Hd2). exact (A4 _ _ _ _ _ _ _ Hne Hk1 Ha1 Hd1 Hk2 Ha2 Hd2). }
    { intros a Hr. destruct (HRt a Hr) as (nm & Hn). exact (A1 _ _ Hn). }
    { exact Hnd. }
    { exact Hfl. }
    { intros p d Hp Hd. unfold opened_options in Hd. unfold D. destruct (dget bound (sp_name p)) as [v|]; [|injection Hd as <-; reflexivity]. destruct v; try discriminate Hd. cbn [read] in Hd. destruct (nth_error st a); [|discriminate]. cbn in Hd. injection Hd as <-. reflexivity. }
    { lia. }
    destruct (HA st2 (fun _ _ => eq_refl)) as (s' & Hrun & _ & _).
    set (self2 := dset (dset self "minimizers" (VMins l2)) "_pickle_kwargs" _).
    assert (B1 : dget self2 "minimizers" = Some (VMins l2)) by (unfold self2; rewrite dget_dset_ne by discriminate; apply dget_dset_eq).
    assert (B2 : dget self2 "__signature__" = Some (VSignature s)) by (unfold self2; rewrite !dget_dset_ne by discriminate; exact Hs).
    assert (B3 : dget self2 "_pickle_kwargs" = Some (VKwargs (dset kw0 "minimizers" (VMins l2)))) by (unfold self2; apply dget_dset_eq).
    assert (B4 : guesses h self2 = Ok guess).
    { rewrite <- Eg. unfold guesses, params_attr, getattr, self2. rewrite !dget_dset_ne by discriminate. reflexivity. }
    eexists. split.
    - cbn [run]. unfold getattr at 1 2 3. rewrite B1, B2, B3. cbn [of_opt bind]. rewrite Eb. cbn [bind]. rewrite B4. cbn [bind]. change (run scipy (S n') h) with (run scipy (S n') h) in Hrun. fold (run scipy n' h). 
      match goal with |- bind ?X _ = _ => replace X with (Ok (s', l2, calls2, answers2)) by (symmetry; exact Hrun) end. cbn [bind]. rewrite Ef. cbn [bind]. rewrite En. cbn [bind]. reflexivity.
    - cbn [oc_object oc_calls oc_answer]. split; [reflexivity|]. split; [reflexivity|]. f_equal.
      rewrite (dset_same self2 "minimizers") by exact B1. rewrite (dset_same (dset kw0 _ _) "minimizers") by apply dget_dset_eq. apply dset_same. exact B3.
  Qed.
  Theorem execute_again n h (o : object raw) st kw r : class_of o <> ChainedMinimizer -> (forall m a, dget kw m = Some (ODict a) -> a < List.length st) -> NoDup (dkeys kw) ->
    run scipy n h o st kw = Ok r ->
    exists r', run scipy n h (oc_object r) (oc_store r) kw = Ok r' /\ oc_calls r' = oc_calls r /\ oc_answer r' = oc_answer r /\ oc_object r' = oc_object r.
  Proof using.
    intros Hc Hw Hnd H. assert (Hn : exists n', n = S n') by (destruct n; [discriminate|eauto]). destruct Hn as (n' & ->).
    destruct (run_single _ _ _ _ _ _ _ Hc H) as (c & a & Hone & Hsc & Hr).
    assert (Hw' : within kw st) by (intros b (m & Hm); apply (Hw m); apply In_dget; assumption).
    destruct (repeats_call h _ st kw _ c Hw' Hone) as (_ & _ & HA). destruct (HA (oc_store r) (fun _ _ => eq_refl)) as (s' & c' & Ho & Hsee & _ & _).
    rewrite Hr. cbn [oc_object oc_store oc_calls oc_answer]. eexists. split; [apply (run_single_again scipy n' h o (oc_store r) kw s' c' a Hc Ho); rewrite Hsee; exact Hsc|].
    cbn [oc_calls oc_answer oc_object]. rewrite Hsee. auto.
  Qed.
End Whole.
