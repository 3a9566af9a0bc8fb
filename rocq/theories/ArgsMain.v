(** * ArgsMain: Parameter, parameters() and pickling. *)
From Coq Require Import Reals Lra.
From Verif Require Import PyBase PyFacts MinFacts Args ArgsSpec ArgsFacts.
Local Open Scope R_scope.
Local Open Scope string_scope.
Local Open Scope list_scope.

Lemma gt_crossed a b : crossed a b -> gt a b = Ok true.
Proof. intros (x & y & H1 & H2 & H). unfold gt. rewrite H1, H2. destruct (Rlt_dec y x); [reflexivity|contradiction]. Qed.
Lemma crossed_not_none a b : crossed a b -> is_none a = false /\ is_none b = false.
Proof. intros (x & y & H1 & H2 & _). destruct a, b; try discriminate; auto. Qed.
Lemma bad_crossed a : crossed (a_min a) (a_max a) -> bounds_bad a = Ok true.
Proof. intros H. unfold bounds_bad. destruct (crossed_not_none _ _ H) as [-> ->]. apply gt_crossed. exact H. Qed.
Lemma bad_ordered a : ordered (a_min a) (a_max a) -> bounds_bad a = Ok false.
Proof.
  unfold bounds_bad. intros [->|[->|(x & y & H1 & H2 & H)]]; [reflexivity|destruct (is_none (a_min a)); reflexivity|].
  destruct (is_none (a_min a)) eqn:E1; [reflexivity|]. destruct (is_none (a_max a)) eqn:E2; [reflexivity|].
  unfold gt. rewrite H1, H2. destruct (Rlt_dec y x); [lra|reflexivity].
Qed.

(** Every pair of bounds is crossed or ordered (comparing with None never happens here). *)
Lemma crossed_or_ordered a b : crossed a b \/ ordered a b.
Proof.
  destruct (num_of a) as [x|] eqn:Ea.
  - destruct (num_of b) as [y|] eqn:Eb.
    + destruct (Rlt_dec y x); [left; exists x, y; auto|right; right; right; exists x, y; repeat split; auto; lra].
    + right; right; left. destruct b as [| |[]]; try discriminate; reflexivity.
  - right; left. destruct a as [| |[]]; try discriminate; reflexivity.
Qed.

Lemma create_rejects w c name a hit : Inv w -> name <> Some "" -> cls_par c = true ->
  crossed (a_min a) (a_max a) -> truthy (a_fixed a) = false -> snd (create w c name a hit) = Raise ValueError.
Proof.
  intros HI Hn Hp Hc Hf. destruct (create w c name a hit) as [w' r] eqn:E.
  destruct (create_spec _ _ _ _ _ _ _ HI Hn E) as (_ & _ & o & b & _ & _ & _ & _ & Hr). rewrite Hp in Hr. destruct Hr as [_ ->].
  unfold init_effect. rewrite (bad_crossed _ Hc), Hf. reflexivity.
Qed.

Lemma create_accepts w c name a hit : Inv w -> name <> Some "" -> cls_par c = true ->
  ordered (a_min a) (a_max a) ->
  exists w' o, create w c name a hit = (w', Ok o) /\
    is_parameter w' o (the_name w c name) (a_value a) (a_min a) (a_max a) (a_fixed a) /\
    (forall o', o' <> o -> obj w' o' = obj w o') /\ Inv w' /\
    (obj w o = None \/ dget (w_cache w) (c, the_name w c name) = Some o /\ hit = true).
Proof.
  intros HI Hn Hp Ho. destruct (create w c name a hit) as [w' r] eqn:E.
  destruct (create_spec _ _ _ _ _ _ _ HI Hn E) as (HI' & _ & o & b & Hfr & Hbn & Hbc & Hcase & Hr). rewrite Hp in Hr. destruct Hr as [Hx ->].
  unfold init_effect in *. rewrite (bad_ordered _ Ho) in *. simpl in *. exists w', o. split; [reflexivity|].
  split; [|split; [exact Hfr|split; [exact HI'|]]].
  - eexists. split; [exact Hx|]. simpl. rewrite Hbc. auto 7.
  - destruct Hcase as [(H1 & H2 & _)|(_ & H1 & _)]; auto.
Qed.

(** A creation that fails, or that is of a new name, leaves the other objects alone. *)
Lemma create_frame w c name a hit w' r : Inv w -> name <> Some "" -> create w c name a hit = (w', r) ->
  exists o, (forall o', o' <> o -> obj w' o' = obj w o') /\
    (forall x, obj w o = Some x -> o_name x = the_name w c name /\ o_cls x = c) /\
    (forall o1, r = Ok o1 -> o1 = o).
Proof.
  intros HI Hn E. destruct (create_spec _ _ _ _ _ _ _ HI Hn E) as (_ & _ & o & b & Hfr & Hbn & Hbc & Hcase & Hr).
  exists o. split; [exact Hfr|]. split.
  - intros x Hx. destruct Hcase as [(_ & _ & Hb)|(_ & Hb & _)]; [|congruence]. assert (x = b) as -> by congruence. auto.
  - intros o1. destruct (cls_par c); destruct Hr as [_ ->]; [|congruence]. destruct (snd (init_effect a (indexed (counter w c) b))); [congruence|discriminate].
Qed.

(** ** parameters() *)
Lemma make_all_keeps names : forall w a hit w' os o y, Inv w -> ~ In "" names -> make_all w names a hit = (w', Ok os) ->
  obj w o = Some y -> exists z, obj w' o = Some z /\ o_name z = o_name y.
Proof.
  induction names as [|m names IH]; intros w a hit w' os o y HI Hne E Hy; simpl in E.
  - injection E as -> _. exists y; auto.
  - destruct (create w CParameter (Some m) a (hit m)) as [w3 [o3|e]] eqn:E3; [|discriminate].
    destruct (make_all w3 names a hit) as [w4 [os4|e]] eqn:E4; [|discriminate]. injection E as -> _.
    assert (Hm : Some m <> Some "") by (intros [= ->]; apply Hne; left; reflexivity).
    destruct (create_keeps _ _ _ _ _ _ _ _ _ HI Hm E3 Hy) as (z & Hz & Nz & _).
    destruct (create_spec _ _ _ _ _ _ _ HI Hm E3) as (HI3 & _).
    destruct (IH w3 a hit w' os4 o z HI3 ltac:(intros H; apply Hne; right; exact H) E4 Hz) as (z' & Hz' & Nz'). exists z'. split; [exact Hz'|congruence].
Qed.

Lemma make_all_spec names : forall w a hit, Inv w -> NoDup names -> ~ In "" names -> ordered (a_min a) (a_max a) ->
  exists w' os, make_all w names a hit = (w', Ok os) /\ List.length os = List.length names /\ Inv w' /\ NoDup os /\
    (forall i o n, nth_error os i = Some o -> nth_error names i = Some n ->
       is_parameter w' o n (a_value a) (a_min a) (a_max a) (a_fixed a) /\
       exists x, obj w' o = Some x /\ o_cls x = CParameter) /\
    (forall o, ~ In o os -> obj w' o = obj w o).
Proof.
  induction names as [|n names IH]; intros w a hit HI Hnd Hne Ho.
  - exists w, []. simpl. split; [reflexivity|]. split; [reflexivity|]. split; [exact HI|]. split; [constructor|]. split; [intros [|i]; discriminate|auto].
  - apply NoDup_cons_iff in Hnd as [Hnn Hnd].
    assert (Hn : Some n <> Some "") by (intros [= ->]; apply Hne; left; reflexivity).
    destruct (create_accepts w CParameter (Some n) a (hit n) HI Hn eq_refl Ho) as (w1 & o & E1 & P1 & Fr1 & HI1 & _).
    destruct (create_result _ _ _ _ _ _ _ HI Hn E1) as (y & Hy & Ny & Cy). simpl in Ny.
    destruct (IH w1 a hit HI1 Hnd ltac:(intros H; apply Hne; right; exact H) Ho) as (w2 & os & E2 & L2 & HI2 & Nd2 & P2 & Fr2).
    simpl. rewrite E1, E2. exists w2, (o :: os). split; [reflexivity|]. split; [simpl; congruence|]. split; [exact HI2|].
    assert (Hnin : ~ In o os).
    { intros Hin. apply In_nth_error in Hin as (i & Hi). destruct (nth_error names i) as [n'|] eqn:En.
      - destruct (P2 i o n' Hi En) as [(x & Hx & _ & Hxn & _) _].
        assert (Hkeep : exists z, obj w2 o = Some z /\ o_name z = o_name y).
        { destruct (make_all_keeps names w1 a hit w2 os o y HI1 ltac:(intros H; apply Hne; right; exact H) E2 Hy) as (z & Hz & Nz). exists z; auto. }
        destruct Hkeep as (z & Hz & Nz). assert (z = x) as -> by congruence. apply Hnn. rewrite <- Ny, <- Nz, Hxn. apply (nth_error_In _ _ En).
      - apply nth_error_None in En. assert (i < List.length os)%nat by (apply nth_error_Some; congruence). lia. }
    split; [constructor; assumption|]. split.
    + intros [|i] o' n' Hi Hni; simpl in Hi, Hni.
      * injection Hi as <-. injection Hni as <-. unfold is_parameter. rewrite (Fr2 o Hnin). split; [exact P1|]. exists y. auto.
      * exact (P2 i o' n' Hi Hni).
    + intros o' Hni. rewrite Fr2 by (intros H; apply Hni; right; exact H). apply Fr1. intros ->. apply Hni. left; reflexivity.
Qed.

(** Setting an attribute of each of a list of different objects. *)
Lemma set_all_spec k os : forall w vs, NoDup os -> Inv w ->
  Inv (set_all w k os vs) /\
  (forall i o v x, nth_error os i = Some o -> nth_error vs i = Some v -> obj w o = Some x -> obj (set_all w k os vs) o = Some (setattr k v x)) /\
  (forall i o, nth_error os i = Some o -> nth_error vs i = None -> obj (set_all w k os vs) o = obj w o) /\
  (forall o, ~ In o os -> obj (set_all w k os vs) o = obj w o).
Proof.
  induction os as [|o os IH]; intros w vs Hnd HI; simpl.
  - split; [exact HI|]. split; [intros [|i]; discriminate|]. split; [intros [|i]; discriminate|reflexivity].
  - apply NoDup_cons_iff in Hnd as [Hni Hnd]. destruct vs as [|v vs].
    + split; [exact HI|]. split; [intros [|i]; discriminate|]. auto.
    + assert (HI1 : Inv (upd w o (setattr k v))) by (apply upd_Inv; [intros x _; split; reflexivity|exact HI]).
      destruct (IH (upd w o (setattr k v)) vs Hnd HI1) as (H0 & H1 & H2 & H3). split; [exact H0|]. split; [|split].
      * intros [|i] o' v' x Ho Hv Hx; simpl in Ho, Hv.
        -- injection Ho as <-. injection Hv as <-. rewrite H3 by exact Hni. apply obj_upd_same. exact Hx.
        -- apply (H1 i o' v' x Ho Hv). rewrite obj_upd_other; [exact Hx|]. intros ->. apply Hni. apply (nth_error_In _ _ Ho).
      * intros [|i] o' Ho Hv; simpl in Ho, Hv; [discriminate|]. rewrite (H2 i o' Ho Hv). apply obj_upd_other. intros ->. apply Hni. apply (nth_error_In _ _ Ho).
      * intros o' Hno. rewrite H3 by tauto. apply obj_upd_other. tauto.
Qed.

(** Object [o] has this attribute. *)
Definition has (w : world) (o : nat) (k : slot) (v : pyval) : Prop :=
  exists x, obj w o = Some x /\ getattr k x = Some v.

Lemma getattr_setattr k k' v x : getattr k' (setattr k v x) = if (match k, k' with Value, Value | Min, Min | Max, Max | Fixed, Fixed => true | _, _ => false end) then Some v else getattr k' x.
Proof. destruct k, k'; reflexivity. Qed.

Definition slot_eqb (k k' : slot) : bool := match k, k' with Value, Value | Min, Min | Max, Max | Fixed, Fixed => true | _, _ => false end.
Lemma slot_eqb_true k k' : slot_eqb k k' = true <-> k = k'.
Proof. destruct k, k'; simpl; split; congruence. Qed.

(** The values an iterable hands to [zip(params, values)]. *)
Definition given (v : kwarg) (n : nat) : list pyval :=
  match v with Scalar _ => [] | Sized l => l | Iterator l => l | Endless x => repeat x n end.

Lemma map_const {A} (x : pyval) (l : list A) : map (fun _ => x) l = repeat x (List.length l).
Proof. induction l as [|y l IH]; simpl; congruence. Qed.

Definition sized_ok (v : kwarg) (n : nat) : bool := match v with Sized l => Nat.eqb (List.length l) n | _ => true end.
Definition seq_arg (v : kwarg) : Prop := match v with Scalar _ => False | _ => True end.

Lemma apply_seq_eq w os k v : seq_arg v ->
  apply_seq w os k v = (set_all w k os (given v (List.length os)), if sized_ok v (List.length os) then Ok tt else Raise ValueError).
Proof. intros H. destruct v as [x|l|l|x]; [destruct H|reflexivity|reflexivity|]. simpl. rewrite map_const. reflexivity. Qed.

(** Applying sequences for different slots. *)
Lemma apply_seqs_spec seqs : forall w os, NoDup os -> Inv w -> NoDup (map fst seqs) ->
  (forall k v, In (k, v) seqs -> seq_arg v /\ sized_ok v (List.length os) = true) ->
  (forall o, In o os -> exists x, obj w o = Some x) ->
  exists w', apply_seqs w os seqs = (w', Ok tt) /\ Inv w' /\
    (forall o, ~ In o os -> obj w' o = obj w o) /\
    (forall i o x, nth_error os i = Some o -> obj w o = Some x -> exists x', obj w' o = Some x' /\ o_name x' = o_name x /\ o_cls x' = o_cls x /\
       (forall k v u, In (k, v) seqs -> nth_error (given v (List.length os)) i = Some u -> getattr k x' = Some u) /\
       (forall k, (forall v u, In (k, v) seqs -> nth_error (given v (List.length os)) i = Some u -> False) -> getattr k x' = getattr k x)).
Proof.
  induction seqs as [|[k v] seqs IH]; intros w os Hnd HI Hks Hv Hex; simpl.
  - exists w. split; [reflexivity|]. split; [exact HI|]. split; [reflexivity|]. intros i o x _ Hx. exists x. split; [exact Hx|]. split; [reflexivity|]. split; [reflexivity|]. split; [intros ? ? ? []|reflexivity].
  - destruct (Hv k v (or_introl eq_refl)) as [Hsq Hsz]. rewrite (apply_seq_eq w os k v Hsq), Hsz.
    destruct (set_all_spec k os w (given v (List.length os)) Hnd HI) as (HI1 & S1 & S2 & S3).
    simpl in Hks. apply NoDup_cons_iff in Hks as [Hk Hks]. set (w1 := set_all w k os (given v (List.length os))) in *.
    assert (Hone : forall i o x, nth_error os i = Some o -> obj w o = Some x -> exists x1, obj w1 o = Some x1 /\ o_name x1 = o_name x /\ o_cls x1 = o_cls x /\
       (forall u, nth_error (given v (List.length os)) i = Some u -> getattr k x1 = Some u) /\
       (nth_error (given v (List.length os)) i = None -> x1 = x) /\ (forall k', k' <> k -> getattr k' x1 = getattr k' x)).
    { intros i o x Ho Hx. destruct (nth_error (given v (List.length os)) i) as [u|] eqn:Eu.
      - exists (setattr k u x). split; [apply (S1 i o u x Ho Eu Hx)|]. split; [reflexivity|]. split; [reflexivity|]. split; [intros u' [= <-]; destruct k; reflexivity|]. split; [discriminate|].
        intros k' Hk'. destruct k, k'; try reflexivity; contradiction Hk'; reflexivity.
      - exists x. rewrite (S2 i o Ho Eu). split; [exact Hx|]. split; [reflexivity|]. split; [reflexivity|]. split; [discriminate|]. auto. }
    destruct (IH w1 os Hnd HI1 Hks) as (w2 & E2 & HI2 & F2 & P2).
    + intros k' v' Hin. apply (Hv k' v'). right; exact Hin.
    + intros o Ho. apply In_nth_error in Ho as (i & Hi). destruct (Hex o (nth_error_In _ _ Hi)) as (x & Hx). destruct (Hone i o x Hi Hx) as (x1 & Hx1 & _). exists x1; exact Hx1.
    + exists w2. split; [exact E2|]. split; [exact HI2|]. split.
      * intros o Ho. rewrite F2 by exact Ho. apply S3. exact Ho.
      * intros i o x Ho Hx. destruct (Hone i o x Ho Hx) as (x1 & Hx1 & N1 & C1 & Hset & Hsame & Hoth).
        destruct (P2 i o x1 Ho Hx1) as (x2 & Hx2 & N2 & C2 & Hin2 & Hout2). exists x2. split; [exact Hx2|]. split; [congruence|]. split; [congruence|]. split.
        -- intros k' v' u [He|Hin] Hu.
           ++ injection He as <- <-. rewrite Hout2; [apply Hset; exact Hu|]. intros v' u' Hin' _. apply Hk. apply in_map_iff. exists (k, v'). auto.
           ++ apply (Hin2 k' v' u Hin Hu).
        -- intros k' Hno. rewrite Hout2 by (intros v' u' Hin' Hu'; apply (Hno v' u'); [right; exact Hin'|exact Hu']).
           destruct (nth_error (given v (List.length os)) i) as [u|] eqn:Eu; [|rewrite (Hsame eq_refl); reflexivity].
           apply Hoth. intros ->. apply (Hno v u (or_introl eq_refl) Eu).
Qed.
