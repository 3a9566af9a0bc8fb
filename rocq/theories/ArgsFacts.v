(** * ArgsFacts: facts about the creation of Arguments. *)
From Coq Require Import Reals Lra.
From Verif Require Import PyBase PyFacts MinFacts Args ArgsSpec.
Local Open Scope R_scope.
Local Open Scope string_scope.
Local Open Scope list_scope.

Lemma set_nth_length {A} (l : list A) i x : List.length (set_nth l i x) = List.length l.
Proof. revert i; induction l as [|y l IH]; intros [|i]; simpl; congruence. Qed.
Lemma nth_set_nth {A} (l : list A) i j x :
  nth_error (set_nth l i x) j = if Nat.eqb i j then match nth_error l i with Some _ => Some x | None => None end else nth_error l j.
Proof.
  revert i j; induction l as [|y l IH]; intros [|i] [|j]; simpl; try reflexivity.
  - destruct (Nat.eqb i j); reflexivity.
  - apply IH.
Qed.

Lemma obj_upd w o f o' : obj (upd w o f) o' = if Nat.eqb o o' then option_map f (obj w o) else obj w o'.
Proof.
  unfold upd. destruct (obj w o) as [x|] eqn:E.
  - unfold obj at 1; cbn [w_objs]. rewrite nth_set_nth. unfold obj in E. rewrite E. reflexivity.
  - destruct (Nat.eqb_spec o o') as [->|]; [rewrite E; reflexivity|reflexivity].
Qed.
Lemma obj_upd_same w o f x : obj w o = Some x -> obj (upd w o f) o = Some (f x).
Proof. intros H. rewrite obj_upd, Nat.eqb_refl, H. reflexivity. Qed.
Lemma obj_upd_other w o f o' : o <> o' -> obj (upd w o f) o' = obj w o'.
Proof. intros H. rewrite obj_upd. destruct (Nat.eqb_spec o o'); [contradiction|reflexivity]. Qed.
Lemma cache_upd w o f : w_cache (upd w o f) = w_cache w.
Proof. unfold upd. destruct (obj w o); reflexivity. Qed.
Lemma ctr_upd w o f : w_ctr (upd w o f) = w_ctr w.
Proof. unfold upd. destruct (obj w o); reflexivity. Qed.

Definition Inv (w : world) : Prop :=
  forall c n o, dget (w_cache w) (c, n) = Some o -> exists x, obj w o = Some x /\ o_name x = n /\ o_cls x = c.

Lemma Inv_start : Inv start.
Proof. intros c n o H. discriminate H. Qed.

Lemma upd_Inv w o f : (forall x, obj w o = Some x -> o_name (f x) = o_name x /\ o_cls (f x) = o_cls x) -> Inv w -> Inv (upd w o f).
Proof.
  intros Hf HI c n o' H. rewrite cache_upd in H. destruct (HI _ _ _ H) as (x & Hx & Hn & Hc).
  destruct (Nat.eq_dec o o') as [<-|Hne].
  - exists (f x). rewrite (obj_upd_same _ _ _ _ Hx). destruct (Hf _ Hx) as [E1 E2]. rewrite E1, E2. auto.
  - exists x. rewrite obj_upd_other by exact Hne. auto.
Qed.

Definition blank (c : pycls) (n : string) : pobj :=
  {| o_cls := c; o_name := n; o_index := 0; o_value := None; o_min := None; o_max := None; o_fixed := None |}.

Lemma symbol_new_spec w c n hit w' o : Inv w -> symbol_new w c n hit = (w', o) ->
  Inv w' /\ w_ctr w' = w_ctr w /\ (forall o', o' <> o -> obj w' o' = obj w o') /\
  exists b, obj w' o = Some b /\ o_name b = n /\ o_cls b = c /\
    ((dget (w_cache w) (c, n) = Some o /\ hit = true /\ obj w o = Some b) \/
     ((hit = false \/ dget (w_cache w) (c, n) = None) /\ obj w o = None /\ b = blank c n)).
Proof.
  intros HI. unfold symbol_new. destruct (if hit then dget (w_cache w) (c, n) else None) as [o1|] eqn:E; intros H.
  - injection H as <- <-. destruct hit; [|discriminate]. destruct (HI _ _ _ E) as (x & Hx & Hn & Hc).
    split; [exact HI|]. split; [reflexivity|]. split; [reflexivity|]. exists x. auto 7.
  - injection H as <- <-.
    assert (Hob : forall o', obj {| w_objs := w_objs w ++ [blank c n]; w_cache := dset (w_cache w) (c, n) (List.length (w_objs w)); w_ctr := w_ctr w |} o' = if Nat.eqb o' (List.length (w_objs w)) then Some (blank c n) else obj w o').
    { intros o'. unfold obj; cbn [w_objs]. destruct (Nat.eqb_spec o' (List.length (w_objs w))) as [->|Hne].
      - rewrite nth_error_app2 by lia. rewrite Nat.sub_diag. reflexivity.
      - destruct (Nat.lt_ge_cases o' (List.length (w_objs w))) as [Hl|Hl].
        + rewrite nth_error_app1 by lia. reflexivity.
        + rewrite nth_error_app2 by lia. assert (E1 : nth_error (w_objs w) o' = None) by (apply nth_error_None; lia).
          rewrite E1. apply nth_error_None. simpl. lia. }
    assert (Hnone : obj w (List.length (w_objs w)) = None) by (apply nth_error_None; lia).
    split; [|split; [reflexivity|split]].
    + intros c' n' o' H. cbn [w_cache] in H. rewrite dget_dset in H. rewrite Hob.
      destruct (eq_dec (c', n') (c, n)) as [He|He].
      * injection H as <-. rewrite Nat.eqb_refl. exists (blank c n). injection He as -> ->. auto.
      * destruct (HI _ _ _ H) as (x & Hx & Hn & Hc). exists x. destruct (Nat.eqb_spec o' (List.length (w_objs w))) as [->|]; [congruence|auto].
    + intros o' Hne. rewrite Hob. destruct (Nat.eqb_spec o' (List.length (w_objs w))); [contradiction|reflexivity].
    + exists (blank c n). split; [rewrite Hob, Nat.eqb_refl; reflexivity|]. split; [reflexivity|]. split; [reflexivity|].
      right. split; [|auto]. destruct hit; auto.
Qed.

(** The name under which an Argument is created. *)
Definition the_name (w : world) (c : pycls) (name : option string) : string :=
  match name with Some s => s | None => auto_name c (counter w c) end.

Definition indexed (k : nat) (x : pobj) : pobj :=
  {| o_cls := o_cls x; o_name := o_name x; o_index := k; o_value := o_value x; o_min := o_min x; o_max := o_max x; o_fixed := o_fixed x |}.

Lemma argument_new_spec w c name hit w' o : Inv w -> name <> Some "" -> argument_new w c name hit = (w', o) ->
  Inv w' /\ (forall c', counter w' c' = if eq_dec c' c then S (counter w c) else counter w c') /\
  (forall o', o' <> o -> obj w' o' = obj w o') /\
  exists b, obj w' o = Some (indexed (counter w c) b) /\ o_name b = the_name w c name /\ o_cls b = c /\
    ((dget (w_cache w) (c, the_name w c name) = Some o /\ hit = true /\ obj w o = Some b) \/
     ((hit = false \/ dget (w_cache w) (c, the_name w c name) = None) /\ obj w o = None /\ b = blank c (the_name w c name))).
Proof.
  intros HI Hn. unfold argument_new.
  assert (En : match name with Some s => if string_dec s "" then auto_name c (counter w c) else s | None => auto_name c (counter w c) end = the_name w c name).
  { destruct name as [s|]; [|reflexivity]. simpl. destruct (string_dec s "") as [->|]; [contradiction (Hn eq_refl)|reflexivity]. }
  rewrite En. destruct (symbol_new w c (the_name w c name) hit) as [w1 o1] eqn:E. intros H. injection H as <- <-.
  destruct (symbol_new_spec _ _ _ _ _ _ HI E) as (HI1 & Hc1 & Hfr & b & Hb & Hbn & Hbc & Hcase).
  assert (HI2 : Inv (upd w1 o1 (indexed (counter w c)))).
  { apply upd_Inv; [|exact HI1]. intros x _. split; reflexivity. }
  split; [|split; [|split]].
  - intros c' n' o' H. exact (HI2 c' n' o' H).
  - intros c'. unfold counter at 1. cbn [w_ctr]. rewrite ctr_upd, dget_dset, Hc1. destruct (eq_dec c' c) as [->|]; reflexivity.
  - intros o' Ho. change (obj (upd w1 o1 (indexed (counter w c))) o' = obj w o'). rewrite obj_upd_other by congruence. apply Hfr. exact Ho.
  - exists b. split; [|auto]. change (obj (upd w1 o1 (indexed (counter w c))) o1 = Some (indexed (counter w c) b)). apply obj_upd_same. exact Hb.
Qed.

(** The attributes of a Parameter after its creation from the state [b] the object was in. *)
Definition set_vf (a : pargs) (x : pobj) : pobj := setattr Fixed (a_fixed a) (setattr Value (a_value a) x).
Definition set_all4 (a : pargs) (x : pobj) : pobj := setattr Max (a_max a) (setattr Min (a_min a) (set_vf a x)).

Definition bounds_bad (a : pargs) : res bool :=
  if is_none (a_min a) then Ok false else if is_none (a_max a) then Ok false else gt (a_min a) (a_max a).

Definition init_effect (a : pargs) (x : pobj) : pobj * res unit :=
  match bounds_bad a with
  | Raise e => (set_vf a x, Raise e)
  | Ok true => (set_vf a x, if truthy (a_fixed a) then Ok tt else Raise ValueError)
  | Ok false => (set_all4 a x, Ok tt)
  end.

Lemma argument_init_spec w o name x : Inv w -> obj w o = Some x -> (forall s, name = Some s -> o_name x = s) ->
  Inv (argument_init w o name) /\ (forall c, counter (argument_init w o name) c = counter w c) /\
  (forall o', obj (argument_init w o name) o' = obj w o').
Proof.
  intros HI Hx Hs. destruct name as [s|]; simpl; [|auto].
  assert (Ef : {| o_cls := o_cls x; o_name := s; o_index := o_index x; o_value := o_value x; o_min := o_min x; o_max := o_max x; o_fixed := o_fixed x |} = x).
  { rewrite <- (Hs s eq_refl). destruct x; reflexivity. }
  split; [|split].
  - apply upd_Inv; [|exact HI]. intros y Hy. assert (y = x) as -> by congruence. rewrite Ef. auto.
  - intros c. unfold counter. rewrite ctr_upd. reflexivity.
  - intros o'. rewrite obj_upd. destruct (Nat.eqb_spec o o') as [<-|]; [|reflexivity]. rewrite Hx. simpl. rewrite Ef. reflexivity.
Qed.

Lemma parameter_init_spec w o name a x : Inv w -> obj w o = Some x -> (forall s, name = Some s -> o_name x = s) ->
  let '(w', r) := parameter_init w o name a in
  Inv w' /\ (forall c, counter w' c = counter w c) /\ (forall o', o' <> o -> obj w' o' = obj w o') /\
  obj w' o = Some (fst (init_effect a x)) /\ r = snd (init_effect a x).
Proof.
  intros HI Hx Hs. destruct (argument_init_spec w o name x HI Hx Hs) as (HI1 & Hc1 & Ho1).
  unfold parameter_init. set (w1 := argument_init w o name) in *.
  match goal with |- context [upd w1 o ?f] => set (f2 := f) end. set (w2 := upd w1 o f2).
  assert (Hx1 : obj w1 o = Some x) by (rewrite Ho1; exact Hx).
  assert (Hx2 : obj w2 o = Some (set_vf a x)) by (unfold w2; rewrite (obj_upd_same _ _ _ _ Hx1); reflexivity).
  assert (HI2 : Inv w2) by (apply upd_Inv; [intros y _; split; reflexivity|exact HI1]).
  assert (Hc2 : forall c, counter w2 c = counter w c) by (intros c; unfold counter, w2; rewrite ctr_upd; apply Hc1).
  assert (Ho2 : forall o', o' <> o -> obj w2 o' = obj w o') by (intros o' Hne; unfold w2; rewrite obj_upd_other by congruence; apply Ho1).
  unfold init_effect. change (if is_none (a_min a) then Ok false else if is_none (a_max a) then Ok false else gt (a_min a) (a_max a)) with (bounds_bad a).
  destruct (bounds_bad a) as [[]|e].
  - destruct (truthy (a_fixed a)); auto.
  - match goal with |- context [upd w2 o ?f] => set (f3 := f) end. simpl. split; [|split; [|split; [|split; [|reflexivity]]]].
    + apply upd_Inv; [intros y _; split; reflexivity|exact HI2].
    + intros c. unfold counter. rewrite ctr_upd. apply Hc2.
    + intros o' Hne. rewrite obj_upd_other by congruence. apply Ho2. exact Hne.
    + rewrite (obj_upd_same _ _ _ _ Hx2). reflexivity.
  - auto.
Qed.

Lemma create_spec w c name a hit w' r : Inv w -> name <> Some "" -> create w c name a hit = (w', r) ->
  Inv w' /\ (forall c', counter w' c' = if eq_dec c' c then S (counter w c) else counter w c') /\
  exists o b, (forall o', o' <> o -> obj w' o' = obj w o') /\
    o_name b = the_name w c name /\ o_cls b = c /\
    ((dget (w_cache w) (c, the_name w c name) = Some o /\ hit = true /\ obj w o = Some b) \/
     ((hit = false \/ dget (w_cache w) (c, the_name w c name) = None) /\ obj w o = None /\ b = blank c (the_name w c name))) /\
    (if cls_par c then
       obj w' o = Some (fst (init_effect a (indexed (counter w c) b))) /\
       r = (match snd (init_effect a (indexed (counter w c) b)) with Ok _ => Ok o | Raise e => Raise e end)
     else obj w' o = Some (indexed (counter w c) b) /\ r = Ok o).
Proof.
  intros HI Hn. unfold create. destruct (argument_new w c name hit) as [w1 o] eqn:E.
  destruct (argument_new_spec _ _ _ _ _ _ HI Hn E) as (HI1 & Hc1 & Hfr & b & Hb & Hbn & Hbc & Hcase).
  assert (Hs : forall s, name = Some s -> o_name (indexed (counter w c) b) = s).
  { intros s ->. exact Hbn. }
  destruct (cls_par c).
  - pose proof (parameter_init_spec w1 o name a _ HI1 Hb Hs) as Hp. destruct (parameter_init w1 o name a) as [w2 r2].
    destruct Hp as (HI2 & Hc2 & Ho2 & Hx2 & ->). intros H. injection H as <- <-.
    split; [exact HI2|]. split; [intros c'; rewrite Hc2; apply Hc1|]. exists o, b.
    split; [intros o' Hne; rewrite Ho2 by exact Hne; apply Hfr; exact Hne|]. auto.
  - destruct (argument_init_spec w1 o name _ HI1 Hb Hs) as (HI2 & Hc2 & Ho2). intros H. injection H as <- <-.
    split; [exact HI2|]. split; [intros c'; rewrite Hc2; apply Hc1|]. exists o, b.
    split; [intros o' Hne; rewrite Ho2; apply Hfr; exact Hne|]. rewrite Ho2. auto.
Qed.

Lemma init_effect_id a x : o_name (fst (init_effect a x)) = o_name x /\ o_cls (fst (init_effect a x)) = o_cls x /\ o_index (fst (init_effect a x)) = o_index x.
Proof. unfold init_effect. destruct (bounds_bad a) as [[]|]; simpl; auto. Qed.

(** Every event keeps the identity of the objects there are. *)
Lemma create_keeps w c name a hit w' r o x : Inv w -> name <> Some "" -> create w c name a hit = (w', r) ->
  obj w o = Some x -> exists y, obj w' o = Some y /\ o_name y = o_name x /\ o_cls y = o_cls x.
Proof.
  intros HI Hn E Hx. destruct (create_spec _ _ _ _ _ _ _ HI Hn E) as (_ & _ & o1 & b & Hfr & Hbn & Hbc & Hcase & Hr).
  destruct (Nat.eq_dec o o1) as [->|Hne]; [|exists x; rewrite Hfr by exact Hne; auto].
  destruct Hcase as [(_ & _ & Hb)|(_ & Hb & _)]; [|congruence]. assert (b = x) as -> by congruence.
  destruct (init_effect_id a (indexed (counter w c) x)) as (E1 & E2 & _).
  destruct (cls_par c); destruct Hr as [Hr _]; eexists; (split; [exact Hr|]); [rewrite E1, E2|]; auto.
Qed.

Lemma create_result w c name a hit w' o : Inv w -> name <> Some "" -> create w c name a hit = (w', Ok o) ->
  exists y, obj w' o = Some y /\ o_name y = the_name w c name /\ o_cls y = c.
Proof.
  intros HI Hn E. destruct (create_spec _ _ _ _ _ _ _ HI Hn E) as (_ & _ & o1 & b & Hfr & Hbn & Hbc & Hcase & Hr).
  destruct (init_effect_id a (indexed (counter w c) b)) as (E1 & E2 & _).
  destruct (cls_par c); destruct Hr as [Hr Eo].
  - destruct (snd (init_effect a (indexed (counter w c) b))); [|discriminate]. injection Eo as ->.
    eexists; split; [exact Hr|]. rewrite E1, E2. auto.
  - injection Eo as ->. eexists; split; [exact Hr|]. auto.
Qed.

Lemma step_Inv w e w' r : Inv w -> (forall c a hit, e <> Create c (Some "") a hit) -> step w e = (w', r) ->
  Inv w' /\ (forall c, (counter w c <= counter w' c)%nat) /\
  (forall o x, obj w o = Some x -> exists y, obj w' o = Some y /\ o_name y = o_name x /\ o_cls y = o_cls x).
Proof.
  intros HI Hne. destruct e as [c name a hit|o k v]; simpl.
  - destruct (create w c name a hit) as [w1 r1] eqn:E. intros H. injection H as <- <-.
    assert (Hn : name <> Some "") by (intros ->; apply (Hne c a hit eq_refl)).
    destruct (create_spec _ _ _ _ _ _ _ HI Hn E) as (HI1 & Hc1 & _). split; [exact HI1|]. split.
    + intros c'. rewrite Hc1. destruct (eq_dec c' c) as [->|]; lia.
    + intros o x Hx. exact (create_keeps _ _ _ _ _ _ _ _ _ HI Hn E Hx).
  - intros H. injection H as <- <-. split; [apply upd_Inv; [intros x _; split; reflexivity|exact HI]|]. split.
    + intros c. unfold counter. rewrite ctr_upd. lia.
    + intros o' x Hx. rewrite obj_upd. destruct (Nat.eqb_spec o o') as [->|]; [rewrite Hx; simpl; eexists; split; [reflexivity|auto]|exists x; auto].
Qed.

Lemma exec_Inv es : forall w w' rs, Inv w -> no_empty_names es -> exec w es = (w', rs) ->
  Inv w' /\ (forall c, (counter w c <= counter w' c)%nat) /\
  (forall o x, obj w o = Some x -> exists y, obj w' o = Some y /\ o_name y = o_name x /\ o_cls y = o_cls x).
Proof.
  induction es as [|e es IH]; intros w w' rs HI Hne; simpl.
  - intros H. injection H as <- <-. split; [exact HI|]. split; [lia|]. intros o x Hx. exists x. auto.
  - destruct (step w e) as [w1 r1] eqn:E1. destruct (exec w1 es) as [w2 rs2] eqn:E2. intros H. injection H as <- <-.
    assert (H1 : forall c a hit, e <> Create c (Some "") a hit) by (intros c a hit ->; apply (Hne c a hit); left; reflexivity).
    assert (H2 : no_empty_names es) by (intros c a hit Hin; apply (Hne c a hit); right; exact Hin).
    destruct (step_Inv _ _ _ _ HI H1 E1) as (HI1 & Hc1 & Hk1). destruct (IH _ _ _ HI1 H2 E2) as (HI2 & Hc2 & Hk2).
    split; [exact HI2|]. split; [intros c; specialize (Hc1 c); specialize (Hc2 c); lia|].
    intros o x Hx. destruct (Hk1 _ _ Hx) as (y & Hy & N1 & C1). destruct (Hk2 _ _ Hy) as (z & Hz & N2 & C2).
    exists z. split; [exact Hz|]. split; congruence.
Qed.

Lemma reachable_Inv w : reachable w -> Inv w.
Proof.
  intros (es & Hne & <-). destruct (exec start es) as [w rs] eqn:E. destruct (exec_Inv _ _ _ _ Inv_start Hne E) as [H _]. exact H.
Qed.

(** A creation in a history: the state before it, and the name at the end. *)
Lemma creates_name es : forall w w' rs i c name o, Inv w -> no_empty_names es -> exec w es = (w', rs) ->
  creates es rs i c name o ->
  exists k x, obj w' o = Some x /\ o_cls x = c /\ (counter w c <= k < counter w' c)%nat /\
    o_name x = match name with Some s => s | None => auto_name c k end.
Proof.
  induction es as [|e es IH]; intros w w' rs i c name o HI Hne; simpl.
  - intros H. injection H as <- <-. intros ((a & hit & Hi) & _). destruct i; discriminate Hi.
  - destruct (step w e) as [w1 r1] eqn:E1. destruct (exec w1 es) as [w2 rs2] eqn:E2. intros H. injection H as <- <-.
    assert (H1 : forall c a hit, e <> Create c (Some "") a hit) by (intros c0 a hit ->; apply (Hne c0 a hit); left; reflexivity).
    assert (H2 : no_empty_names es) by (intros c0 a hit Hin; apply (Hne c0 a hit); right; exact Hin).
    destruct (step_Inv _ _ _ _ HI H1 E1) as (HI1 & Hc1 & Hk1). destruct (exec_Inv _ _ _ _ HI1 H2 E2) as (HI2 & Hc2 & Hk2).
    intros ((a & hit & Hi) & Ho). destruct i as [|i]; simpl in Hi, Ho.
    + injection Hi as ->. injection Ho as ->. simpl in E1. destruct (create w c name a hit) as [w1' r1'] eqn:Ec. injection E1 as -> ->.
      assert (Hn : name <> Some "") by (intros ->; exact (H1 c a hit eq_refl)).
      destruct (create_result _ _ _ _ _ _ _ HI Hn Ec) as (y & Hy & N1 & C1). destruct (Hk2 _ _ Hy) as (z & Hz & N2 & C2).
      destruct (create_spec _ _ _ _ _ _ _ HI Hn Ec) as (_ & Hcc & _). specialize (Hcc c). destruct (eq_dec c c) as [_|Hx]; [|contradiction Hx; reflexivity].
      exists (counter w c), z. split; [exact Hz|]. split; [congruence|]. split; [specialize (Hc2 c); lia|]. rewrite N2, N1. reflexivity.
    + destruct (IH _ _ _ i c name o HI1 H2 E2) as (k & x & Hx & Hcx & Hk & Hnm); [split; [exists a, hit; exact Hi|exact Ho]|].
      exists k, x. split; [exact Hx|]. split; [exact Hcx|]. split; [specialize (Hc1 c); lia|exact Hnm].
Qed.

(** Two nameless creations of the same class use different numbers. *)
Lemma creates_two es : forall w w' rs i j c o1 o2, Inv w -> no_empty_names es -> exec w es = (w', rs) ->
  creates es rs i c None o1 -> creates es rs j c None o2 -> (i < j)%nat ->
  exists k1 k2 x1 x2, (k1 < k2)%nat /\ obj w' o1 = Some x1 /\ o_name x1 = auto_name c k1 /\
    obj w' o2 = Some x2 /\ o_name x2 = auto_name c k2.
Proof.
  induction es as [|e es IH]; intros w w' rs i j c o1 o2 HI Hne; simpl.
  - intros H. injection H as <- <-. intros ((a & hit & Hi) & _). destruct i; discriminate Hi.
  - destruct (step w e) as [w1 r1] eqn:E1. destruct (exec w1 es) as [w2 rs2] eqn:E2. intros H. injection H as <- <-.
    assert (H1 : forall c a hit, e <> Create c (Some "") a hit) by (intros c0 a hit ->; apply (Hne c0 a hit); left; reflexivity).
    assert (H2 : no_empty_names es) by (intros c0 a hit Hin; apply (Hne c0 a hit); right; exact Hin).
    destruct (step_Inv _ _ _ _ HI H1 E1) as (HI1 & Hc1 & Hk1). destruct (exec_Inv _ _ _ _ HI1 H2 E2) as (HI2 & Hc2 & Hk2).
    intros C1 C2 Hij. destruct j as [|j]; [lia|].
    assert (C2' : creates es rs2 j c None o2) by exact C2.
    destruct i as [|i].
    + destruct (creates_name _ _ _ _ _ _ _ _ HI1 H2 E2 C2') as (k2 & x2 & Hx2 & _ & Hk & Hn2).
      destruct C1 as ((a & hit & Hi) & Ho). simpl in Hi, Ho. injection Hi as ->. injection Ho as ->.
      simpl in E1. destruct (create w c None a hit) as [w1' r1'] eqn:Ec. injection E1 as -> ->.
      assert (Hn : @None string <> Some "") by discriminate.
      destruct (create_result _ _ _ _ _ _ _ HI Hn Ec) as (y & Hy & N1 & _). destruct (Hk2 _ _ Hy) as (z & Hz & N2 & _).
      destruct (create_spec _ _ _ _ _ _ _ HI Hn Ec) as (_ & Hcc & _). specialize (Hcc c). destruct (eq_dec c c) as [_|Hx]; [|contradiction Hx; reflexivity].
      exists (counter w c), k2, z, x2. split; [lia|]. split; [exact Hz|]. split; [rewrite N2; exact N1|auto].
    + exact (IH _ _ _ i j c o1 o2 HI1 H2 E2 C1 C2' ltac:(lia)).
Qed.

Lemma auto_name_inj c1 c2 k1 k2 : auto_name c1 k1 = auto_name c2 k2 -> cls_prefix c1 = cls_prefix c2 /\ k1 = k2.
Proof.
  unfold auto_name. intros H. apply suffix_inj in H as [H1 H2]; [|apply nat_no_us|apply nat_no_us]. split; [exact H1|apply string_of_nat_inj; exact H2].
Qed.

Theorem auto_names_distinct es w rs i j c1 c2 o1 o2 : exec start es = (w, rs) -> no_empty_names es ->
  creates es rs i c1 None o1 -> creates es rs j c2 None o2 -> i <> j -> (c1 = c2 \/ cls_prefix c1 <> cls_prefix c2) ->
  exists x1 x2, obj w o1 = Some x1 /\ obj w o2 = Some x2 /\ o_name x1 <> o_name x2.
Proof.
  intros E Hne C1 C2 Hij [<-|Hp].
  - destruct (Nat.lt_ge_cases i j) as [Hl|Hl].
    + destruct (creates_two _ _ _ _ _ _ _ _ _ Inv_start Hne E C1 C2 Hl) as (k1 & k2 & x1 & x2 & Hk & A1 & N1 & A2 & N2).
      exists x1, x2. split; [exact A1|]. split; [exact A2|]. rewrite N1, N2. intros H. apply auto_name_inj in H. lia.
    + destruct (creates_two _ _ _ _ _ _ _ _ _ Inv_start Hne E C2 C1 ltac:(lia)) as (k1 & k2 & x1 & x2 & Hk & A1 & N1 & A2 & N2).
      exists x2, x1. split; [exact A2|]. split; [exact A1|]. rewrite N1, N2. intros H. apply auto_name_inj in H. lia.
  - destruct (creates_name _ _ _ _ _ _ _ _ Inv_start Hne E C1) as (k1 & x1 & A1 & _ & _ & N1).
    destruct (creates_name _ _ _ _ _ _ _ _ Inv_start Hne E C2) as (k2 & x2 & A2 & _ & _ & N2).
    exists x1, x2. split; [exact A1|]. split; [exact A2|]. rewrite N1, N2. intros H. apply auto_name_inj in H. tauto.
Qed.

Theorem auto_object_new es w rs i j c1 c2 n2 o1 o2 : exec start es = (w, rs) -> no_empty_names es ->
  creates es rs i c1 None o1 -> creates es rs j c2 n2 o2 -> i <> j ->
  (forall s k, n2 = Some s -> c1 = c2 -> s <> auto_name c1 k) -> o1 <> o2.
Proof.
  intros E Hne C1 C2 Hij Hs ->.
  destruct (creates_name _ _ _ _ _ _ _ _ Inv_start Hne E C1) as (k1 & x1 & A1 & Hc1 & _ & N1).
  destruct (creates_name _ _ _ _ _ _ _ _ Inv_start Hne E C2) as (k2 & x2 & A2 & Hc2 & _ & N2).
  assert (x1 = x2) as <- by congruence. assert (c1 = c2) as <- by congruence.
  destruct n2 as [s|].
  - apply (Hs s k1 eq_refl eq_refl). congruence.
  - destruct (auto_names_distinct _ _ _ _ _ _ _ _ _ E Hne C1 C2 Hij (or_introl eq_refl)) as (y1 & y2 & B1 & B2 & Hn). congruence.
Qed.
