(** * OdeMore: integrator settings, negation, keys of higher order, failures. *)
From Coq Require Import Reals Lra Sorted.
From Coquelicot Require Import Coquelicot.
From Verif Require Import PyBase PyFacts Toposort Signature SignatureFacts Expr Model ModelSpec ModelFacts CallFacts ModelMisc ExprR Jacobian JacAnalysis Ode OdeSpec OdeTimes OdeFacts.
Local Open Scope R_scope.
Local Open Scope string_scope.
Local Open Scope list_scope.

(** The settings as a user would describe them. *)
Definition setting (user : dict string optval) (k : string) : option optval :=
  match dget user k with
  | Some v => Some v
  | None =>
      if eq_dec k "method" then Some (OStr "LSODA")
      else match dget user "method" with
           | None | Some (OStr "LSODA") =>
               if eq_dec k "atol" then Some (ONum lsoda_tol) else if eq_dec k "rtol" then Some (ONum lsoda_tol) else None
           | Some _ => None
           end
  end.

Lemma opts_setting user k : NoDup (dkeys user) -> dget (integrator_opts user) k = setting user k.
Proof.
  intros Hnd. unfold integrator_opts, setting.
  set (o := dupdate [("method", OStr "LSODA")] user).
  assert (Ho : forall k, dget o k = match dget user k with Some v => Some v | None => if eq_dec k "method" then Some (OStr "LSODA") else None end).
  { intros k'. unfold o. rewrite dget_dupdate_nodup by exact Hnd. destruct (dget user k'); [reflexivity|]. simpl. reflexivity. }
  assert (Hset : forall (d : dict string optval) k1 v, dget (if dmem d k1 then d else dset d k1 v) k =
                   match dget d k with Some w => Some w | None => if eq_dec k k1 then Some v else None end).
  { intros d k1 v. destruct (dmem d k1) eqn:E.
    - destruct (dget d k) eqn:E2; [reflexivity|]. destruct (eq_dec k k1) as [->|_]; [|reflexivity].
      unfold dmem in E. rewrite E2 in E. discriminate.
    - rewrite dget_dset. destruct (eq_dec k k1) as [->|_]; [|destruct (dget d k); reflexivity].
      unfold dmem in E. destruct (dget d k1); [discriminate|reflexivity]. }
  assert (HL : dget (let o0 := if dmem o "atol" then o else dset o "atol" (ONum lsoda_tol) in
                     if dmem o0 "rtol" then o0 else dset o0 "rtol" (ONum lsoda_tol)) k =
               match dget user k with Some v => Some v | None => if eq_dec k "method" then Some (OStr "LSODA") else
                 if eq_dec k "atol" then Some (ONum lsoda_tol) else if eq_dec k "rtol" then Some (ONum lsoda_tol) else None end).
  { cbv zeta. rewrite Hset, Hset, Ho. destruct (dget user k); [reflexivity|]. destruct (eq_dec k "method"); [reflexivity|].
    destruct (eq_dec k "atol"); reflexivity. }
  destruct (dget user "method") as [v|] eqn:Em.
  - assert (Hm : dget o "method" = Some v) by (rewrite Ho, Em; reflexivity). rewrite Hm.
    destruct v as [s|r|i]; [destruct (string_dec s "LSODA") as [->|Hne]|..].
    + etransitivity; [exact HL|]. reflexivity.
    + assert (Hcase : forall (X : Type) (a b : X), match s with "LSODA" => a | _ => b end = b).
      { intros X a b. repeat (match goal with |- context [match ?x with _ => _ end] => destruct x end; try reflexivity). exfalso. apply Hne. reflexivity. }
      rewrite Hcase, Ho. destruct (dget user k); [reflexivity|]. destruct (eq_dec k "method"); [reflexivity|]. rewrite Hcase. reflexivity.
    + rewrite Ho. destruct (dget user k); [reflexivity|]. destruct (eq_dec k "method"); reflexivity.
    + rewrite Ho. destruct (dget user k); [reflexivity|]. destruct (eq_dec k "method"); reflexivity.
  - assert (Hm : dget o "method" = Some (OStr "LSODA")) by (rewrite Ho, Em; reflexivity). rewrite Hm. etransitivity; [exact HL|]. reflexivity.
Qed.

(** Only the first variable of differentiation matters. *)
Definition truncate (d : odkey) : odkey := {| od_y := od_y d; od_vars := firstn 1 (od_vars d) |}.
Definition truncate_items (items : dict odkey expr) : dict odkey expr := map (fun kv => (truncate (fst kv), snd kv)) items.

Lemma mapM_truncate {Z} (f : odkey -> res Z) items l : (forall d z, f d = Ok z -> f (truncate d) = Ok z) ->
  mapM (fun kv => f (fst kv)) items = Ok l -> mapM (fun kv => f (fst kv)) (truncate_items items) = Ok l.
Proof.
  intros Hf. unfold truncate_items. rewrite mapM_of_map. revert l. induction items as [|[d e] items IH]; intros l H; [exact H|].
  simpl in *. apply bind_Ok in H as (z & Hz & H). apply bind_Ok in H as (zs & Hzs & H). inv H.
  rewrite (Hf d z Hz). cbn [bind]. rewrite (IH zs Hzs). reflexivity.
Qed.

Lemma insert_map {X Y} (f : X -> Y) (leb : Y -> Y -> bool) (x : X) l :
  insert leb (f x) (map f l) = map f (insert (fun a b => leb (f a) (f b)) x l).
Proof. induction l as [|y l IH]; simpl; [reflexivity|]. destruct (leb (f x) (f y)); simpl; [reflexivity|]. rewrite IH. reflexivity. Qed.
Lemma isort_map {X Y} (f : X -> Y) (leb : Y -> Y -> bool) l :
  isort leb (map f l) = map f (isort (fun a b => leb (f a) (f b)) l).
Proof. induction l as [|x l IH]; simpl; [reflexivity|]. rewrite IH. apply insert_map. Qed.

Lemma truncated_same S simp ord items initial user m : init_ode ord items initial user = Ok m ->
  exists m', init_ode ord (truncate_items items) initial user = Ok m' /\
    (forall v, ode_getitem m' v = ode_getitem m v) /\
    (forall a kw, ode_call S simp m' a kw = ode_call S simp m a kw).
Proof.
  intros H. unfold init_ode in *. apply bind_Ok in H as (deps & Hd & H). apply bind_Ok in H as (vars & Hv & H).
  rewrite (mapM_truncate dep_of items deps), (mapM_truncate var_of items vars); auto.
  2:{ intros d z. unfold var_of, truncate. cbn [od_vars]. destruct (od_vars d); auto. }
  2:{ intros d z. unfold dep_of, truncate. cbn [od_vars od_y]. destruct (inb (od_y d) (od_vars d)) eqn:E; [discriminate|].
      apply inb_false in E. replace (inb (od_y d) (firstn 1 (od_vars d))) with false; [auto|]. symmetry. apply inb_false.
      intros Hin. apply E. destruct (od_vars d); simpl in *; [exact Hin|]. destruct Hin as [->|[]]; left; reflexivity. }
  cbn [bind]. destruct (Nat.eqb _ 1); [|discriminate].
  assert (Hfl : flat_map (fun kv : odkey * expr => snd (seperate_symbols ord (snd kv))) (truncate_items items) =
                flat_map (fun kv : odkey * expr => snd (seperate_symbols ord (snd kv))) items).
  { unfold truncate_items. clear. rewrite flat_map_concat_map, map_map, <- flat_map_concat_map. reflexivity. }
  rewrite Hfl. apply bind_Ok in H as (sig & Hs & H). rewrite Hs. cbn [bind]. apply (f_equal (fun r => match r with Ok m => m | Raise _ => m end)) in H. cbn iota in H.
  eexists. split; [reflexivity|]. subst m.
  match goal with |- context [ode_getitem ?x _ = ode_getitem ?y _] => set (m1 := x); set (m2 := y) end.
  assert (Hget : forall v, ode_getitem m1 v = ode_getitem m2 v).
  { intros v. unfold ode_getitem, m1, m2. cbn [o_dict]. unfold sort_by, truncate_items. rewrite isort_map.
    cbn [fst snd truncate od_y].
    generalize (isort (fun a b : odkey * expr => strleb (sname (od_y (fst a))) (sname (od_y (fst b)))) items). intros l.
    induction l as [|kv l IH]; [reflexivity|]. cbn [map find fst snd truncate od_y]. destruct (eqb v (od_y (fst kv))); [reflexivity|exact IH]. }
  split; [exact Hget|]. intros a kw.
  assert (Hval : ode_values m1 = ode_values m2).
  { unfold ode_values, ode_keys. apply map_ext. exact Hget. }
  assert (Hsys : system m1 = system m2) by (unfold system; rewrite Hval; reflexivity).
  assert (Hjac : diff_system simp m1 = diff_system simp m2) by (unfold diff_system; rewrite Hval; reflexivity).
  unfold ode_call, ode_columns, integrate. rewrite Hsys, Hjac. reflexivity.
Qed.

(** Negation. *)
Lemma unknowns_map f items : unknowns (map (fun kv : odkey * expr => (fst kv, f (snd kv))) items) = unknowns items.
Proof. unfold unknowns. rewrite map_map. reflexivity. Qed.
Lemma unknowns_sort items : Permutation (unknowns (sort_by (fun kv : odkey * expr => sname (od_y (fst kv))) items)) (unknowns items).
Proof. unfold unknowns. apply Permutation_map. symmetry. apply sort_by_perm. Qed.

(** What is assumed of [expr * -1]: same symbols, opposite value. *)
Definition mulm1_spec (mulm1 : expr -> expr) : Prop :=
  (forall e s, In s (occs (mulm1 e)) <-> In s (occs e)) /\ (forall env e, eval Ralg env (mulm1 e) = - eval Ralg env e).

Section Neg.
  Context (ord ord' : list sym -> list sym) (items : dict odkey expr) (initial : dict sym oinit) (user : dict string optval) (t : sym) (m : ode).
  Context (mulm1 : expr -> expr).
  Hypothesis Hmul : mulm1_spec mulm1.
  Hypothesis Ho : set_order ord.
  Hypothesis Ho' : set_order ord'.
  Hypothesis Hf : first_order items t.
  Hypothesis Hin : initial_ok initial.
  Hypothesis Hn : ode_names items initial t.
  Hypothesis Hm : init_ode ord items initial user = Ok m.

  Definition neg_items : dict odkey expr := map (fun kv => (fst kv, mulm1 (snd kv))) (o_dict m).

  Lemma neg_in d e : In (d, e) neg_items <-> exists e0, In (d, e0) items /\ e = mulm1 e0.
  Proof.
    unfold neg_items. destruct (init_ode_inv ord items initial user t Ho Hf Hin Hn m Hm) as (-> & _). rewrite in_map_iff. split.
    - intros ([d' e0] & He & Hi). cbn [fst snd] in He. inv He. rewrite in_sort_by in Hi. eauto.
    - intros (e0 & Hi & ->). exists (d, e0). split; [reflexivity|]. rewrite in_sort_by. exact Hi.
  Qed.
  Lemma neg_unknowns : Permutation (unknowns neg_items) (unknowns items).
  Proof.
    unfold neg_items. rewrite unknowns_map. destruct (init_ode_inv ord items initial user t Ho Hf Hin Hn m Hm) as (-> & _). apply unknowns_sort.
  Qed.
  Lemma neg_unknown y : In y (unknowns neg_items) <-> In y (unknowns items).
  Proof. split; apply Permutation_in; [|symmetry]; apply neg_unknowns. Qed.
  Lemma neg_first_order : first_order neg_items t.
  Proof.
    destruct Hf as (Hne & Hnd & Ht & Hp & Hk & Hs).
    split; [|split; [|split; [|split; [|split]]]].
    - intros H. pose proof neg_unknowns as P. rewrite H in P. unfold unknowns in P. simpl in P. apply Permutation_nil in P. apply map_eq_nil in P. contradiction.
    - exact (Permutation_NoDup (Permutation_sym neg_unknowns) Hnd).
    - rewrite neg_unknown. exact Ht.
    - exact Hp.
    - intros d e H. apply neg_in in H as (e0 & Hi & _). apply (Hk d e0 Hi).
    - intros d e s Hd Hse. apply neg_in in Hd as (e0 & Hi & ->). apply (proj1 (proj1 Hmul _ _)) in Hse. rewrite neg_unknown. exact (Hs d e0 s Hi Hse).
  Qed.
  Lemma neg_param p : problem_param neg_items initial p <-> problem_param items initial p.
  Proof.
    unfold problem_param, eq_param. split; (intros [(Hp & d & e & Hd & He)|H]; [left; split; [exact Hp|]|right; exact H]).
    - apply neg_in in Hd as (e0 & Hi & ->). apply (proj1 (proj1 Hmul _ _)) in He. eauto.
    - exists d, (mulm1 e). split; [apply neg_in; eauto|]. apply (proj2 (proj1 Hmul _ _)). exact He.
  Qed.
  Lemma neg_names : ode_names neg_items initial t.
  Proof.
    intros s s' Hs Hs'. apply Hn; unfold ode_symbol in *.
    - rewrite neg_unknown, neg_param in Hs. exact Hs.
    - rewrite neg_unknown, neg_param in Hs'. exact Hs'.
  Qed.

  Lemma alphabetical_same l l' : (forall s, In s l -> ode_symbol items initial t s) -> NoDup l -> NoDup l' ->
    (forall s, In s l <-> In s l') -> alphabetical sname l -> alphabetical sname l' -> l = l'.
  Proof.
    intros Hsy Hnd Hnd' Hiff A1 A2. apply (alphabetical_unique sname); auto; [|apply NoDup_Permutation; auto].
    intros x y Hx Hy He. apply Hn; auto.
  Qed.

  Lemma neg_ok : exists m', ode_neg mulm1 ord' m = Ok m' /\ o_dep m' = o_dep m /\ o_indep m' = o_indep m /\
    o_params m' = o_params m /\ o_initial m' = o_initial m /\
    (forall d e, In (d, e) items -> exists e', ode_getitem m' (od_y d) = Some e' /\ forall env, eval Ralg env e' = - eval Ralg env e) /\
    o_opts m' = integrator_opts [].
  Proof.
    pose proof (init_ode_inv ord items initial user t Ho Hf Hin Hn m Hm) as (_ & I1 & _ & I2 & I3 & _ & _ & I4 & _).
    destruct (init_ode_ok ord' neg_items initial [] t Ho' neg_first_order Hin neg_names) as (m' & Hm' & _).
    exists m'. unfold ode_neg. rewrite I1. fold neg_items. split; [exact Hm'|].
    pose proof (init_ode_inv ord' neg_items initial [] t Ho' neg_first_order Hin neg_names m' Hm') as (_ & J1 & J5 & J2 & J3 & _ & _ & J4 & _).
    split.
    { rewrite I3, J3. apply sort_by_perm_eq; [|apply neg_unknowns]. intros x y Hx Hy He.
      apply neg_names; auto; right; left; assumption. }
    split; [congruence|]. split.
    { symmetry. apply alphabetical_same.
      - intros s Hs. right; right. apply (in_oparams ord items initial user t Ho Hf Hin Hn m Hm). exact Hs.
      - rewrite I4. apply (sorted_nodup ord Ho), NoDup_dedup.
      - rewrite J4. apply (sorted_nodup ord' Ho'), NoDup_dedup.
      - intros s. rewrite (in_oparams ord items initial user t Ho Hf Hin Hn m Hm), (in_oparams ord' neg_items initial [] t Ho' neg_first_order Hin neg_names m' Hm').
        symmetry. apply neg_param.
      - rewrite I4. apply sort_by_sorted.
      - rewrite J4. apply sort_by_sorted. }
    split; [congruence|]. split; [|exact J5].
    intros d e Hd. exists (mulm1 e). split; [|intros env; apply (proj2 Hmul)].
    apply (getitem_ok ord' neg_items initial [] t Ho' neg_first_order Hin neg_names m' Hm'). apply neg_in. eauto.
  Qed.
End Neg.
