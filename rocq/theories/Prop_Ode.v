(** * Prop_Ode: properties C50-C53, C62-C64. *)
From Coq Require Import Reals Lra Sorted.
From Coquelicot Require Import Coquelicot.
From Verif Require Import PyBase PyFacts Toposort Signature SignatureFacts Expr Model ModelSpec ModelFacts CallFacts ModelMisc ExprR Jacobian JacAnalysis Ode OdeSpec OdeTimes OdeFacts OdeMain OdeMore OdeExample.
Local Open Scope R_scope.
Local Open Scope string_scope.
Local Open Scope list_scope.

(** ** C50.  [S] is any integrator without numerical error, [phi] the solution of the
    user's initial value problem on an interval around the requested times.  For
    strictly increasing times the call returns the solution at each of them, whether
    or not the initial time is among them. *)
Theorem C50_increasing_times :
  forall S simp ord items initial user t m inp t0 lo hi phi ts args kw,
    exact S -> simp_ok simp -> set_order ord ->
    first_order items t -> initial_ok initial -> ode_names items initial t ->
    init_ode ord items initial user = Ok m -> dget initial t = Some (IVal t0) ->
    the_solution items t initial inp t0 phi lo hi ->
    supplies (call_values t (VArr ts) (o_params m) inp) args kw ->
    StronglySorted Rlt ts -> (exists u, In u ts /\ u <> t0) -> (forall u, In u ts -> lo < u < hi) ->
    exists o, ode_call S simp m args kw = Ok o /\ reports items phi o ts.
Proof.
  intros S simp ord items initial user t m inp t0 lo hi phi ts args kw HS Hs Ho Hf Hi Hn Hm Ht Hp Hsup.
  exact (ode_ascending S simp ord items initial user t m inp t0 t0 lo hi phi HS Hs Ho Hf Hi Hn Hm Ht Hp ts args kw eq_refl Hsup).
Qed.
Print Assumptions C50_increasing_times.

(** Times in any order, without the initial time: ValueError, or the times sorted. *)
Theorem C50_other_orders_sorted_or_rejected :
  forall S simp ord items initial user t m inp t0 lo hi phi ts args kw,
    exact S -> simp_ok simp -> set_order ord ->
    first_order items t -> initial_ok initial -> ode_names items initial t ->
    init_ode ord items initial user = Ok m -> dget initial t = Some (IVal t0) ->
    the_solution items t initial inp t0 phi lo hi ->
    supplies (call_values t (VArr ts) (o_params m) inp) args kw ->
    ts <> [] -> ~ In t0 ts -> (forall u, In u ts -> lo < u < hi) ->
    let low := filter (fun u => if Rlt_dec u t0 then true else false) ts in
    let high := filter (fun u => if Rlt_dec t0 u then true else false) ts in
    (~ (StronglySorted Rlt low /\ StronglySorted Rlt high) /\ ode_call S simp m args kw = Raise ValueError) \/
    exists o, ode_call S simp m args kw = Ok o /\ StronglySorted Rlt (low ++ high) /\
      Permutation (low ++ high) ts /\ reports items phi o (low ++ high).
Proof.
  intros S simp ord items initial user t m inp t0 lo hi phi ts args kw HS Hs Ho Hf Hi Hn Hm Ht Hp Hsup.
  exact (ode_unsorted S simp ord items initial user t m inp t0 t0 lo hi phi HS Hs Ho Hf Hi Hn Hm Ht Hp ts args kw eq_refl Hsup).
Qed.
Print Assumptions C50_other_orders_sorted_or_rejected.

(** A result is only returned if the integrations needed for it succeeded. *)
Theorem C50_failure_is_not_hidden :
  forall S simp (m : ode) ts args kw t t0 bound o, StronglySorted Rlt ts ->
    sig_bind (o_sig m) args kw = Ok bound -> o_indep m = [t] -> dget bound (sname t) = Some (VArr ts) ->
    dget (o_initial m) t = Some (IVal t0) -> ode_call S simp m args kw = Ok o ->
    ((exists u, In u ts /\ t0 < u) -> exists p r, S p = Ok r /\ fst (i_span p) < snd (i_span p) /\ r_success r = true) /\
    ((exists u, In u ts /\ u < t0) -> exists p r, S p = Ok r /\ snd (i_span p) < fst (i_span p) /\ r_success r = true).
Proof. exact call_failure. Qed.
Print Assumptions C50_failure_is_not_hidden.

(** Decreasing times that end at the initial time: the initial values are used at the
    FIRST requested time, so the values are those of another problem. *)
Theorem C50_decreasing_times_wrong_problem :
  forall S simp ord items initial user t m inp t0 lo hi psi ts args kw,
    exact S -> simp_ok simp -> set_order ord ->
    first_order items t -> initial_ok initial -> ode_names items initial t ->
    init_ode ord items initial user = Ok m -> dget initial t = Some (IVal t0) ->
    the_solution items t initial inp (hd 0 ts) psi lo hi ->
    supplies (call_values t (VArr ts) (o_params m) inp) args kw ->
    StronglySorted Rgt ts -> (1 < List.length ts)%nat -> last ts 0 = t0 -> (forall u, In u ts -> lo < u < hi) ->
    exists o, ode_call S simp m args kw = Ok o /\ reports items psi o ts.
Proof.
  intros S simp ord items initial user t m inp t0 lo hi psi ts args kw HS Hs Ho Hf Hi Hn Hm Ht Hp Hsup Hd Hl Hlast.
  exact (ode_descending S simp ord items initial user t m inp t0 (hd 0 ts) lo hi psi HS Hs Ho Hf Hi Hn Hm Ht Hp ts args kw Hsup Hd Hl Hlast eq_refl).
Qed.
Print Assumptions C50_decreasing_times_wrong_problem.

(** The example system: {D(z,t): a, D(y,t): a*z} with z = b and y = 1 at t = 0. *)
Example C50_hypotheses_met :
  exact ideal /\ simp_ok (fun e => e) /\ set_order oid /\ first_order ex_ode ot /\ initial_ok ex_initial /\
  ode_names ex_ode ex_initial ot /\ init_ode oid ex_ode ex_initial [] = Ok ex_m /\ dget ex_initial ot = Some (IVal 0) /\
  the_solution ex_ode ot ex_initial (ex_inp 2 3) 0 (ex_phi 2 3 0) (-10) 10 /\
  supplies (call_values ot (VArr [-1; 0; 2]) (o_params ex_m) (ex_inp 2 3)) [VArr [-1; 0; 2]] [("b", VNum 3); ("a", VNum 2)] /\
  ex_phi 2 3 0 oz (-1) = 1 /\ ex_phi 2 3 0 oy 2 = 21.
Proof.
  repeat (split; [first [exact exact_exists | exact simp_id | exact oid_set | exact ex_first_order | exact ex_initial_ok | exact ex_names | reflexivity]|]).
  split; [apply ex_solution; lra|]. split.
  - exists 1%nat. split; [reflexivity|]. destruct ex_shape as (_ & -> & _). apply perm_swap.
  - unfold ex_phi. destruct (eq_dec oz oz) as [_|c]; [|contradiction]. destruct (eq_dec oy oz) as [c|_]; [discriminate|]. lra.
Qed.

(** "Values come back in the order of the requested times" fails: [2, -1] is returned
    as [-1, 2]; [1, 0] is answered with z(1) = 0, z(0) = -1 where z(t) = t; and the
    array [0, 0] yields three columns. *)
Theorem C50_requested_order_refuted :
  forall S, exact S ->
    (exists o, ode_call S (fun e => e) ex_m [VArr [2; -1]; VNum 1; VNum 0] [] = Ok o /\ mo_attr o "z" = Ok [-1; 2]) /\
    (exists o, ode_call S (fun e => e) ex_m [VArr [1; 0]; VNum 1; VNum 0] [] = Ok o /\ mo_attr o "z" = Ok [0; -1]) /\
    (exists o, ode_call S (fun e => e) ex_m [VArr [0; 0]; VNum 1; VNum 0] [] = Ok o /\ mo_attr o "z" = Ok [0; 0; 0]) /\
    (forall u, ex_phi 1 0 0 oz u = u).
Proof.
  intros S HS.
  assert (Hz : forall h u, ex_phi 1 0 h oz u = u - h) by (intros h u; unfold ex_phi; destruct (eq_dec oz oz) as [_|c]; [ring|contradiction]).
  assert (Hsup : forall ts, supplies (call_values ot (VArr ts) (o_params ex_m) (ex_inp 1 0)) [VArr ts; VNum 1; VNum 0] []).
  { intros ts. exists 3%nat. destruct ex_shape as (_ & -> & _). split; [reflexivity|constructor]. }
  assert (Hin : In oz (unknowns ex_ode)) by (left; reflexivity).
  split; [|split; [|split]].
  - destruct (C50_other_orders_sorted_or_rejected S (fun e => e) oid ex_ode ex_initial [] ot ex_m (ex_inp 1 0) 0 (-10) 10 (ex_phi 1 0 0) [2; -1] _ _
      HS simp_id oid_set ex_first_order ex_initial_ok ex_names ex_init eq_refl (ex_solution 1 0 0 (-10) 10 ltac:(lra)) (Hsup [2; -1])) as [[H _]|(o & Ho & _ & _ & Hr)].
    + discriminate.
    + intros [H|[H|[]]]; lra.
    + intros u [<-|[<-|[]]]; lra.
    + exfalso. apply H. cbn [filter]. destruct (Rlt_dec 2 0); [lra|]. destruct (Rlt_dec (-1) 0); [|lra]. destruct (Rlt_dec 0 2); [|lra]. destruct (Rlt_dec 0 (-1)); [lra|].
      split; repeat constructor.
    + exists o. split; [exact Ho|]. destruct Hr as (_ & _ & _ & Hr). rewrite (Hr oz Hin : mo_attr o "z" = _). f_equal. cbn [filter].
      destruct (Rlt_dec 2 0); [lra|]. destruct (Rlt_dec (-1) 0); [|lra]. destruct (Rlt_dec 0 2); [|lra]. destruct (Rlt_dec 0 (-1)); [lra|].
      cbn [map app]. rewrite !Hz. f_equal; [lra|]. f_equal; lra.
  - destruct (C50_decreasing_times_wrong_problem S (fun e => e) oid ex_ode ex_initial [] ot ex_m (ex_inp 1 0) 0 (-10) 10 (ex_phi 1 0 1) [1; 0] _ _
      HS simp_id oid_set ex_first_order ex_initial_ok ex_names ex_init eq_refl (ex_solution 1 0 1 (-10) 10 ltac:(lra)) (Hsup [1; 0])) as (o & Ho & Hr).
    + repeat constructor. lra.
    + simpl; lia.
    + reflexivity.
    + intros u [<-|[<-|[]]]; lra.
    + exists o. split; [exact Ho|]. destruct Hr as (_ & _ & _ & Hr). rewrite (Hr oz Hin : mo_attr o "z" = _). f_equal. cbn [map]. rewrite !Hz. f_equal; [lra|]. f_equal; lra.
  - destruct (ode_twice_initial S (fun e => e) oid ex_ode ex_initial [] ot ex_m (ex_inp 1 0) 0 0 (-10) 10 (ex_phi 1 0 0)
      HS simp_id oid_set ex_first_order ex_initial_ok ex_names ex_init eq_refl (ex_solution 1 0 0 (-10) 10 ltac:(lra)) _ _ eq_refl (Hsup [0; 0])) as (o & Ho & Hr).
    exists o. split; [exact Ho|]. destruct Hr as (_ & _ & _ & Hr). rewrite (Hr oz Hin : mo_attr o "z" = _). f_equal. cbn [map]. rewrite !Hz. f_equal; [lra|]. f_equal; [lra|]. f_equal; lra.
  - intros u. rewrite Hz. ring.
Qed.
Print Assumptions C50_requested_order_refuted.

(** ** C51.  A scalar time, the initial time included. *)
Theorem C51_scalar_time :
  forall S simp ord items initial user t m inp t0 lo hi phi u args kw,
    exact S -> simp_ok simp -> set_order ord ->
    first_order items t -> initial_ok initial -> ode_names items initial t ->
    init_ode ord items initial user = Ok m -> dget initial t = Some (IVal t0) ->
    the_solution items t initial inp t0 phi lo hi ->
    supplies (call_values t (VNum u) (o_params m) inp) args kw -> lo < u < hi ->
    exists o, ode_call S simp m args kw = Ok o /\ reports items phi o [u].
Proof.
  intros S simp ord items initial user t m inp t0 lo hi phi u args kw HS Hs Ho Hf Hi Hn Hm Ht Hp.
  exact (ode_scalar S simp ord items initial user t m inp t0 t0 lo hi phi HS Hs Ho Hf Hi Hn Hm Ht Hp u args kw eq_refl).
Qed.
Print Assumptions C51_scalar_time.

Theorem C51_one_element_array :
  forall S simp ord items initial user t m inp t0 lo hi phi u args kw,
    exact S -> simp_ok simp -> set_order ord ->
    first_order items t -> initial_ok initial -> ode_names items initial t ->
    init_ode ord items initial user = Ok m -> dget initial t = Some (IVal t0) ->
    the_solution items t initial inp t0 phi lo hi ->
    supplies (call_values t (VArr [u]) (o_params m) inp) args kw -> lo < u < hi -> u <> t0 ->
    exists o, ode_call S simp m args kw = Ok o /\ reports items phi o [u].
Proof.
  intros S simp ord items initial user t m inp t0 lo hi phi u args kw HS Hs Ho Hf Hi Hn Hm Ht Hp Hsup Hu Hne.
  apply (C50_increasing_times S simp ord items initial user t m inp t0 lo hi phi [u] args kw); auto.
  - repeat constructor.
  - exists u. split; [left; reflexivity|exact Hne].
  - intros x [<-|[]]. exact Hu.
Qed.
Print Assumptions C51_one_element_array.

(** An array containing only the initial time (or no time) cannot be evaluated. *)
Theorem C51_array_of_initial_time_refuted :
  forall S simp ord items initial user t m inp t0 lo hi phi args kw,
    set_order ord ->
    first_order items t -> initial_ok initial -> ode_names items initial t ->
    init_ode ord items initial user = Ok m -> dget initial t = Some (IVal t0) ->
    the_solution items t initial inp t0 phi lo hi ->
    supplies (call_values t (VArr [t0]) (o_params m) inp) args kw \/ supplies (call_values t (VArr []) (o_params m) inp) args kw ->
    ode_call S simp m args kw = Raise AttributeError.
Proof.
  intros S simp ord items initial user t m inp t0 lo hi phi args kw Ho Hf Hi Hn Hm Ht Hp [Hsup|Hsup].
  - exact (ode_only_initial S simp ord items initial user t m inp t0 t0 lo hi phi Ho Hf Hi Hn Hm Ht Hp args kw Hsup).
  - exact (ode_empty S simp ord items initial user t m inp t0 t0 lo hi phi Ho Hf Hi Hn Hm Ht Hp args kw Hsup).
Qed.
Print Assumptions C51_array_of_initial_time_refuted.

Example C51_case : forall S, exact S ->
  exists o, ode_call S (fun e => e) ex_m [VNum 0; VNum 2; VNum 3] [] = Ok o /\ mo_attr o "z" = Ok [3].
Proof.
  intros S HS. destruct (C51_scalar_time S (fun e => e) oid ex_ode ex_initial [] ot ex_m (ex_inp 2 3) 0 (-1) 1 (ex_phi 2 3 0) 0 [VNum 0; VNum 2; VNum 3] []
    HS simp_id oid_set ex_first_order ex_initial_ok ex_names ex_init eq_refl (ex_solution 2 3 0 (-1) 1 ltac:(lra))) as (o & Ho & _ & _ & _ & Hr).
  - exists 3%nat. destruct ex_shape as (_ & -> & _). split; [reflexivity|constructor].
  - lra.
  - exists o. split; [exact Ho|]. rewrite (Hr oz (or_introl eq_refl) : mo_attr o "z" = _). cbn [map]. unfold ex_phi. destruct (eq_dec oz oz) as [_|c]; [|contradiction].
    f_equal. f_equal. lra.
Qed.

(** ** C52.  Construction: unknowns and parameters in alphabetical order. *)
Theorem C52_construction :
  forall ord items initial user t,
    set_order ord -> first_order items t -> initial_ok initial -> ode_names items initial t ->
    exists m, init_ode ord items initial user = Ok m /\
      o_indep m = [t] /\
      (Permutation (o_dep m) (unknowns items) /\ alphabetical sname (o_dep m)) /\
      ((forall p, In p (o_params m) <-> problem_param items initial p) /\ NoDup (o_params m) /\ alphabetical sname (o_params m)) /\
      ((forall p, In p (o_model_params m) <-> eq_param items p) /\ NoDup (o_model_params m) /\ alphabetical sname (o_model_params m)) /\
      (forall d e, In (d, e) items -> ode_getitem m (od_y d) = Some e) /\
      (forall V args kw b, NoDup (dkeys kw) ->
        (sig_bind (V:=V) (o_sig m) args kw = Ok b <-> dkeys b = map sname (t :: o_params m) /\ supplies b args kw)).
Proof.
  intros ord items initial user t Ho Hf Hi Hn. destruct (init_ode_ok ord items initial user t Ho Hf Hi Hn) as (m & Hm & _ & _ & _ & I1 & I2 & I3 & _ & I4 & I5).
  exists m. split; [exact Hm|]. split; [exact I1|].
  split; [rewrite I2; split; [symmetry; apply sort_by_perm|apply sort_by_sorted]|].
  assert (Hnd : NoDup (o_params m)) by (rewrite I4; apply (sorted_nodup ord Ho), NoDup_dedup).
  split; [split; [exact (in_oparams ord items initial user t Ho Hf Hi Hn m Hm)|split; [exact Hnd|rewrite I4; apply sort_by_sorted]]|].
  split; [split; [exact (in_mparams ord items initial user t Ho Hf Hi Hn m Hm)|split; [rewrite I3; apply (sorted_nodup ord Ho), NoDup_dedup|rewrite I3; apply sort_by_sorted]]|].
  split; [exact (getitem_ok ord items initial user t Ho Hf Hi Hn m Hm)|].
  intros V args kw b Hk. rewrite I5. apply sig_bind_supplies; [|exact Hk].
  apply (args_nodup items initial t Hf Hi Hn); [exact Hnd|]. intros p. apply (in_oparams ord items initial user t Ho Hf Hi Hn m Hm).
Qed.
Print Assumptions C52_construction.

(** The functions handed to the integrator: component i of the system is the right-hand
    side of the i-th unknown, entry (i,j) of the Jacobian its derivative with respect to the
    j-th, for the values [val] of the unknowns and [inp] of the parameters. *)
Theorem C52_system_and_jacobian :
  forall simp ord items initial user t m inp,
    simp_ok simp -> set_order ord -> first_order items t -> initial_ok initial -> ode_names items initial t ->
    init_ode ord items initial user = Ok m ->
    let value u val : sym -> R := fun s => if eq_dec s t then u else if inb s (unknowns items) then val s else inp s in
    (forall u val, exists f, system m u (map val (o_dep m)) (map inp (o_model_params m)) = Ok (map f (o_dep m)) /\
       forall d e, In (d, e) items -> f (od_y d) = eval Ralg (value u val) e) /\
    (forall u val, exists J, diff_system simp m u (map val (o_dep m)) (map inp (o_model_params m)) = Ok (map (fun y => map (J y) (o_dep m)) (o_dep m)) /\
       forall d e v, In (d, e) items -> In v (unknowns items) -> defined (value u val) e ->
         is_derive (fun x => eval Ralg (value u (set_input val v x)) e) (val v) (J (od_y d) v)).
Proof.
  intros simp ord items initial user t m inp Hs Ho Hf Hi Hn Hm value. split; intros u val.
  - eexists. split; [apply (system_val ord items initial user t Ho Hf Hi Hn m Hm inp)|].
    intros d e Hd. unfold rhs. rewrite (getitem_ok ord items initial user t Ho Hf Hi Hn m Hm d e Hd). reflexivity.
  - exists (fun y v => eval Ralg (env_of items t inp u val) (drhs m simp v y)).
    split; [apply (diff_system_val ord items initial user t Ho Hf Hi Hn m Hm inp simp Hs)|].
    intros d e v Hd Hv Hdef.
    assert (Hr : rhs m (od_y d) = e) by (unfold rhs; rewrite (getitem_ok ord items initial user t Ho Hf Hi Hn m Hm d e Hd); reflexivity).
    pose proof (drhs_derive ord items initial user t Ho Hf Hi Hn m Hm inp simp Hs u val v (od_y d)) as H. rewrite Hr in H.
    apply H; [apply (in_dep ord items initial user t Ho Hf Hi Hn m Hm); exact Hv| |exact Hdef].
    apply (in_dep ord items initial user t Ho Hf Hi Hn m Hm). apply in_map_iff. exists (d, e). auto.
Qed.
Print Assumptions C52_system_and_jacobian.

Example C52_case :
  o_dep ex_m = [oy; oz] /\ o_params ex_m = [oa; ob] /\ o_model_params ex_m = [oa] /\
  system ex_m 5 [10; 20] [2] = Ok [2 * 20; 2] /\ diff_system (fun e => e) ex_m 5 [10; 20] [2] = Ok [[0 * 20 + 2 * 0; 0 * 20 + 2 * 1]; [0; 0]].
Proof. repeat split; vm_compute; reflexivity. Qed.

(** ** C53 *)
Theorem C53_lookup :
  forall ord items initial user t m v,
    set_order ord -> first_order items t -> initial_ok initial -> ode_names items initial t ->
    init_ode ord items initial user = Ok m ->
    (forall d e, In (d, e) items -> od_y d = v -> ode_getitem m v = Some e) /\
    (~ In v (unknowns items) -> ode_getitem m v = None) /\
    (In v (ode_keys m) <-> In v (unknowns items)).
Proof.
  intros ord items initial user t m v Ho Hf Hi Hn Hm. split; [|split].
  - intros d e Hd <-. exact (getitem_ok ord items initial user t Ho Hf Hi Hn m Hm d e Hd).
  - exact (getitem_none ord items initial user t Ho Hf Hi Hn m Hm v).
  - exact (in_dep ord items initial user t Ho Hf Hi Hn m Hm v).
Qed.
Print Assumptions C53_lookup.

(** [v in model] is True for every v. *)
Theorem C53_membership_refuted :
  (forall m v, ode_contains m v = true) /\ ~ In ot (unknowns ex_ode) /\ ode_contains ex_m ot = true.
Proof.
  split; [intros m v; unfold ode_contains; destruct (ode_getitem m v); reflexivity|].
  split; [intros [H|[H|[]]]; discriminate|reflexivity].
Qed.
Print Assumptions C53_membership_refuted.

(** ** C62.  Integrator settings: what the user gives is used; the defaults are LSODA
    and, for LSODA only, odeint's tolerances. *)
Theorem C62_integrator_settings :
  forall ord items initial user m k, NoDup (dkeys user) ->
    init_ode ord items initial user = Ok m -> dget (o_opts m) k = setting user k.
Proof.
  intros ord items initial user m k Hnd H. unfold init_ode in H. apply bind_Ok in H as (deps & _ & H). apply bind_Ok in H as (vars & _ & H).
  destruct (Nat.eqb _ 1); [|discriminate]. apply bind_Ok in H as (sig & _ & H). apply (f_equal (fun r => match r with Ok m => m | Raise _ => m end)) in H. cbn iota in H. subst m.
  cbn [o_opts]. apply opts_setting. exact Hnd.
Qed.
Print Assumptions C62_integrator_settings.

(** Every call of the integrator gets exactly these settings. *)
Theorem C62_settings_reach_the_integrator :
  forall S S' simp m args kw,
    (forall p, i_opts p = o_opts m -> i_sys p = system m -> S p = S' p) ->
    ode_call S simp m args kw = ode_call S' simp m args kw.
Proof.
  intros S S' simp m args kw H. unfold ode_call. f_equal. unfold ode_columns.
  destruct (sig_bind (o_sig m) args kw) as [b|]; [|reflexivity]. cbn [bind].
  destruct (of_opt IndexError (hd_error (o_indep m))) as [t|]; [|reflexivity]. cbn [bind].
  destruct (dlook b (sname t)) as [tl|]; [|reflexivity]. cbn [bind].
  destruct (mapM (dlook (o_initial m)) (o_dep m)) as [ini|]; [|reflexivity]. cbn [bind].
  destruct (mapM (initial_value m b) ini) as [y0|]; [|reflexivity]. cbn [bind].
  destruct (dlook (o_initial m) t) as [i0|]; [|reflexivity]. cbn [bind].
  destruct (match i0 with IVal r => Ok r | IPar _ => Raise TypeError end) as [t0|]; [|reflexivity]. cbn [bind].
  destruct (match tl with VNum r => reqb r t0 | VArr _ => false end); [reflexivity|].
  destruct (split_times t0 _) as [tb tsm].
  destruct (mapM (fun p => v <- dlook b (sname p) ;; as_num v) (o_model_params m)) as [ma|]; [|reflexivity]. cbn [bind].
  assert (Hi : forall ts, integrate S simp m y0 ma ts = integrate S' simp m y0 ma ts).
  { intros ts. unfold integrate, solve_ivp. cbn [i_span i_eval]. destruct (Nat.ltb 1 _); [|reflexivity]. rewrite H by reflexivity. reflexivity. }
  rewrite !Hi. reflexivity.
Qed.
Print Assumptions C62_settings_reach_the_integrator.

Example C62_case :
  dget (integrator_opts [("rtol", ONum 1)]) "rtol" = Some (ONum 1) /\
  dget (integrator_opts [("rtol", ONum 1)]) "atol" = Some (ONum lsoda_tol) /\
  dget (integrator_opts [("method", OStr "RK45")]) "atol" = None /\
  dget (integrator_opts [("method", OStr "RK45")]) "method" = Some (OStr "RK45").
Proof. repeat split. Qed.

(** ** C63.  Negation: every right-hand side changes sign, unknowns, initial values and
    parameters stay; the integrator settings become the defaults. *)
Theorem C63_negation :
  forall mulm1 ord ord' items initial user t m,
    mulm1_spec mulm1 -> set_order ord -> set_order ord' ->
    first_order items t -> initial_ok initial -> ode_names items initial t ->
    init_ode ord items initial user = Ok m ->
    exists m', ode_neg mulm1 ord' m = Ok m' /\ o_dep m' = o_dep m /\ o_indep m' = o_indep m /\
      o_params m' = o_params m /\ o_initial m' = o_initial m /\
      (forall d e, In (d, e) items -> exists e', ode_getitem m' (od_y d) = Some e' /\ forall env, eval Ralg env e' = - eval Ralg env e) /\
      (forall k, dget (o_opts m') k = setting [] k).
Proof.
  intros mulm1 ord ord' items initial user t m Hmul Ho Ho' Hf Hi Hn Hm.
  destruct (neg_ok ord ord' items initial user t m mulm1 Hmul Ho Ho' Hf Hi Hn Hm) as (m' & H1 & H2 & H3 & H4 & H5 & H6 & H7).
  exists m'. repeat (split; [assumption|]). intros k. rewrite H7. apply opts_setting. constructor.
Qed.
Print Assumptions C63_negation.

Example C63_settings_lost :
  match init_ode oid ex_ode ex_initial [("method", OStr "RK45")] with
  | Ok m => dget (o_opts m) "method" = Some (OStr "RK45") /\
            match ode_neg ENeg oid m with Ok m' => dget (o_opts m') "method" = Some (OStr "LSODA") | Raise _ => False end
  | Raise _ => False
  end.
Proof. vm_compute. auto. Qed.
Example C63_mulm1 : mulm1_spec ENeg.
Proof. split; [intros e s; unfold ENeg; cbn [occs]; rewrite app_nil_r; reflexivity|]. intros env e. unfold ENeg. simpl. lra. Qed.

(** ** C64.  Only the first variable of differentiation of a key is used: D(y,t,t): e is
    integrated as D(y,t): e. *)
Theorem C64_order_of_derivative_ignored :
  forall S simp ord items initial user m, init_ode ord items initial user = Ok m ->
    exists m', init_ode ord (map (fun kv => ({| od_y := od_y (fst kv); od_vars := firstn 1 (od_vars (fst kv)) |}, snd kv)) items) initial user = Ok m' /\
      (forall v, ode_getitem m' v = ode_getitem m v) /\
      (forall args kw, ode_call S simp m' args kw = ode_call S simp m args kw).
Proof. exact truncated_same. Qed.
Print Assumptions C64_order_of_derivative_ignored.
Example C64_case : exists m, init_ode oid [({| od_y := oy; od_vars := [ot; ot] |}, ESym oa)] [(oy, IVal 0); (ot, IVal 0)] [] = Ok m.
Proof. eexists. reflexivity. Qed.
