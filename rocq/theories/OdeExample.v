(** * OdeExample: an exact integrator exists; a concrete system with its solution. *)
From Coq Require Import Reals Lra Sorted ClassicalEpsilon.
From Coquelicot Require Import Coquelicot.
From Verif Require Import PyBase PyFacts Toposort Signature SignatureFacts Expr Model ModelSpec ModelFacts CallFacts ModelMisc ExprR Jacobian JacAnalysis Ode OdeSpec OdeTimes OdeFacts OdeMain.
Local Open Scope R_scope.
Local Open Scope string_scope.
Local Open Scope list_scope.

Definition good (p : ivp) (Y : R -> list R) : Prop :=
  exists lo hi, trajectory p lo hi Y /\
    (forall lo' hi' Z, lo <= lo' -> hi' <= hi -> trajectory p lo' hi' Z -> forall u, lo' < u < hi' -> Z u = Y u) /\
    jac_correct p lo hi Y /\ (forall u, In u (i_eval p) -> lo < u < hi).

Lemma good_unique p Y Y' : good p Y -> good p Y' -> map Y (i_eval p) = map Y' (i_eval p).
Proof.
  intros (lo & hi & HT & HU & _ & He) (lo' & hi' & HT' & HU' & _ & He'). apply map_ext_in. intros u Hu.
  symmetry. apply (HU (Rmax lo lo') (Rmin hi hi')).
  - apply Rmax_l.
  - apply Rmin_l.
  - destruct HT as (A1 & _). destruct HT' as (B1 & B2 & B3). split; [|split; [exact B2|]].
    + split; [apply Rmax_lub_lt; tauto|apply Rmin_glb_lt; tauto].
    + intros w [Hw1 Hw2]. apply B3. pose proof (Rmax_r lo lo'). pose proof (Rmin_r hi hi'). lra.
  - specialize (He u Hu). specialize (He' u Hu). split; [apply Rmax_lub_lt; tauto|apply Rmin_glb_lt; tauto].
Qed.

Definition ideal (p : ivp) : res ivp_result :=
  match excluded_middle_informative (exists Y, good p Y) with
  | left H => Ok {| r_success := true; r_y := map (proj1_sig (constructive_indefinite_description _ H)) (i_eval p) |}
  | right _ => Ok {| r_success := false; r_y := [] |}
  end.

(** The assumption [exact] can be met. *)
Lemma exact_exists : exact ideal.
Proof.
  intros p lo hi Y HT HU HJ He. assert (Hg : good p Y) by (exists lo, hi; auto).
  unfold ideal. destruct (excluded_middle_informative _) as [H|H]; [|exfalso; apply H; eauto].
  destruct (constructive_indefinite_description _ H) as (Y' & Hg'). simpl. do 2 f_equal. apply good_unique; assumption.
Qed.

(** {D(z,t): a, D(y,t): a*z}, initial z = b (a Parameter), y = 1 at t = 0. *)
Definition ot : sym := SVar "t".
Definition oy : sym := SVar "y".
Definition oz : sym := SVar "z".
Definition oa : sym := SPar "a".
Definition ob : sym := SPar "b".
Definition D (y t : sym) : odkey := {| od_y := y; od_vars := [t] |}.
Definition ex_ode : dict odkey expr := [(D oz ot, ESym oa); (D oy ot, EMul (ESym oa) (ESym oz))].
Definition ex_initial : dict sym oinit := [(oz, IPar ob); (oy, IVal 1); (ot, IVal 0)].
Definition oid : list sym -> list sym := fun l => l.
Lemma oid_set : set_order oid.
Proof. intros l. reflexivity. Qed.
Definition ex_m : ode := match init_ode oid ex_ode ex_initial [] with Ok m => m | Raise _ =>
  {| o_dict := []; o_initial := []; o_opts := []; o_indep := []; o_dep := []; o_model_params := []; o_initial_params := []; o_params := []; o_sig := [] |} end.

Lemma ex_init : init_ode oid ex_ode ex_initial [] = Ok ex_m.
Proof. reflexivity. Qed.
Lemma ex_shape : o_dep ex_m = [oy; oz] /\ o_params ex_m = [oa; ob] /\ o_model_params ex_m = [oa] /\ o_initial_params ex_m = [ob].
Proof. vm_compute. auto. Qed.

Lemma ex_first_order : first_order ex_ode ot.
Proof.
  repeat split.
  - discriminate.
  - apply nodupb_iff. vm_compute. reflexivity.
  - intros [H|[H|[]]]; discriminate.
  - destruct H as [H|[H|[]]]; inversion H; reflexivity.
  - destruct H as [H|[H|[]]]; inversion H; reflexivity.
  - destruct H as [H|[H|[]]]; inversion H; reflexivity.
  - intros d e s [H|[H|[]]] Hs; inversion H; subst; simpl in Hs; destruct Hs as [<-|Hs]; auto;
      destruct Hs as [<-|[]]; right; left; left; reflexivity.
Qed.
Lemma ex_initial_ok : initial_ok ex_initial.
Proof.
  split; [apply nodupb_iff; vm_compute; reflexivity|]. intros y p [H|[H|[H|[]]]]; inversion H; reflexivity.
Qed.
Lemma ex_symbols s : ode_symbol ex_ode ex_initial ot s -> In s [ot; oz; oy; oa; ob].
Proof.
  intros [->|[H|[(Hp & d & e & Hd & Hs)|(y & H)]]].
  - left; reflexivity.
  - simpl in H. simpl. tauto.
  - destruct Hd as [H|[H|[]]]; inversion H; subst; simpl in Hs; destruct Hs as [<-|Hs]; [simpl; tauto|contradiction|simpl; tauto|].
    destruct Hs as [<-|[]]; simpl; tauto.
  - destruct H as [H|[H|[H|[]]]]; inversion H; simpl; tauto.
Qed.
Lemma ex_names : ode_names ex_ode ex_initial ot.
Proof.
  intros s s' Hs Hs'. apply ex_symbols in Hs. apply ex_symbols in Hs'.
  repeat (destruct Hs as [<-|Hs]; [repeat (destruct Hs' as [<-|Hs']; [vm_compute; congruence|]); destruct Hs'|]). destruct Hs.
Qed.

(** a = 2, b = 3. *)
Definition ex_inp (a b : R) : sym -> R := fun s => if eq_dec s oa then a else if eq_dec s ob then b else 0.
(** The solution with the initial values at time [h]. *)
Definition ex_phi (a b h : R) (s : sym) (u : R) : R :=
  if eq_dec s oz then b + a * (u - h) else 1 + a * b * (u - h) + a ^ 2 * (u - h) ^ 2 / 2.

Lemma zero_derivative (f : R -> R) lo hi h u : lo < h < hi -> lo < u < hi ->
  (forall w, lo < w < hi -> is_derive f w 0) -> f u = f h.
Proof.
  intros Hh Hu Hd. destruct (Rtotal_order u h) as [H|[->|H]]; [|reflexivity|].
  - apply (eq_is_derive f u h); [|exact H]. intros w Hw. apply Hd. lra.
  - symmetry. apply (eq_is_derive f h u); [|exact H]. intros w Hw. apply Hd. lra.
Qed.
Lemma same_derivative (f g g' : R -> R) lo hi h u : lo < h < hi -> lo < u < hi -> f h = g h ->
  (forall w, lo < w < hi -> is_derive f w (g' w)) -> (forall w, lo < w < hi -> is_derive g w (g' w)) -> f u = g u.
Proof.
  intros Hh Hu He Hf Hg. assert (H : f u - g u = f h - g h); [|lra].
  apply (zero_derivative (fun x => f x - g x) lo hi h u Hh Hu). intros w Hw.
  replace 0 with (minus (g' w) (g' w)) by (unfold minus, plus, opp; simpl; lra). apply (is_derive_minus f g); auto.
Qed.

Lemma ex_solution_at inp a b h lo hi : inp oa = a -> inp ob = b -> lo < h < hi -> the_solution ex_ode ot ex_initial inp h (ex_phi a b h) lo hi.
Proof.
  intros Ea Eb Hh.
  assert (Hz : forall u, is_derive (ex_phi a b h oz) u a).
  { intros u. unfold ex_phi. destruct (eq_dec oz oz) as [_|c]; [|contradiction]. auto_derive; [exact I|ring]. }
  assert (Hy : forall u, is_derive (ex_phi a b h oy) u (a * (b + a * (u - h)))).
  { intros u. unfold ex_phi. destruct (eq_dec oy oz) as [c|_]; [discriminate|]. auto_derive; [exact I|field]. }
  split; [exact Hh|]. split; [|split].
  - intros d e u [H|[H|[]]] Hu; inversion H; subst d e.
    + split; [exact I|]. change (eval Ralg (at_time ex_ode ot (ex_phi a b h) inp u) (ESym oa)) with (inp oa). rewrite Ea. exact (Hz u).
    + split; [simpl; auto|]. change (eval Ralg (at_time ex_ode ot (ex_phi a b h) inp u) (EMul (ESym oa) (ESym oz))) with (inp oa * ex_phi a b h oz u). rewrite Ea. exact (Hy u).
  - intros s [<-|[<-|[]]].
    + exists (IPar ob). split; [reflexivity|]. cbn [init_value]. rewrite Eb. cbv -[Rplus Rmult Rminus IZR pow Rdiv]. ring.
    + exists (IVal 1). split; [reflexivity|]. cbv -[Rplus Rmult Rminus IZR pow Rdiv]. field.
  - intros psi lo' hi' Hlo Hh' Hhi Hd Hst.
    assert (Hpz : forall u, lo' < u < hi' -> psi oz u = ex_phi a b h oz u).
    { intros u Hu. apply (same_derivative (psi oz) (ex_phi a b h oz) (fun _ => a) lo' hi' h u Hh' Hu).
      - destruct (Hst oz) as (i & Hi & ->); [left; reflexivity|]. inversion Hi. cbn [init_value]. rewrite Eb. cbv -[Rplus Rmult Rminus IZR pow Rdiv]. ring.
      - intros w Hw. pose proof (Hd (D oz ot) _ w (or_introl eq_refl) Hw) as H. change (eval Ralg (at_time ex_ode ot psi inp w) (ESym oa)) with (inp oa) in H. rewrite Ea in H. exact H.
      - intros w _. apply Hz. }
    intros s u [<-|[<-|[]]] Hu; [exact (Hpz u Hu)|].
    apply (same_derivative (psi oy) (ex_phi a b h oy) (fun w => a * (b + a * (w - h))) lo' hi' h u Hh' Hu).
    + destruct (Hst oy) as (i & Hi & ->); [right; left; reflexivity|]. inversion Hi. cbv -[Rplus Rmult Rminus IZR pow Rdiv]. field.
    + intros w Hw. pose proof (Hd (D oy ot) _ w (or_intror (or_introl eq_refl)) Hw) as H.
      change (eval Ralg (at_time ex_ode ot psi inp w) (EMul (ESym oa) (ESym oz))) with (inp oa * psi oz w) in H. rewrite Ea, (Hpz w Hw) in H. exact H.
    + intros w _. apply Hy.
Qed.

Lemma ex_solution a b h lo hi : lo < h < hi -> the_solution ex_ode ot ex_initial (ex_inp a b) h (ex_phi a b h) lo hi.
Proof. apply ex_solution_at; reflexivity. Qed.

Lemma simp_id : simp_ok (fun e => e).
Proof. split; auto. Qed.
