(** * Guess: symfit/contrib/interactive_guess/interactive_guess.py.

    The state of an InteractiveGuess window: axes limits, the points the model is drawn
    at, the sliders and the lines drawn.  Parameters live in the heap.
    Matplotlib's [Slider] is a function [clip lo hi v]: the value shown by a new slider from [lo] to
    [hi] asked to start at [v].  [np.percentile] is a function [pct].
    Left out: the drawing of the data (scatter and contour plots, 242-248, 279-303),
    titles, labels and colours. *)
From Coq Require Import Reals.
From Verif Require Import PyBase Signature Expr NumPy Model Objective Fit.
Local Open Scope R_scope.
Local Open Scope string_scope.
Local Open Scope list_scope.

(** [np.min], [np.max]: ValueError for an empty array *)
Definition values (a : nd) : list R := map (val a) (indices (shp a)).
Definition np_fold (f : R -> R -> R) (a : nd) : res R :=
  match values a with [] => Raise ValueError | x :: l => Ok (fold_left f l x) end.
Definition np_min := np_fold Rmin.
Definition np_max := np_fold Rmax.
(** of a datum; [np.min(None)] is None, and [None - None] then raises TypeError *)
Definition extremes (x : datum) : res (R * R) :=
  match datum_nd x with
  | Some a => lo <- np_min a ;; hi <- np_max a ;; Ok (lo, hi)
  | None => Raise TypeError
  end.
(** [np.linspace(lo, hi, n)] *)
Definition linspace (lo hi : R) (n : nat) : list R := map (fun i => lo + INR i * ((hi - lo) / INR (n - 1))) (seq 0 n).
Definition arr1 (l : list R) : nd := {| shp := [List.length l]; val := fun i => nth (hd 0%nat i) l 0 |}.

(** [np.meshgrid(x0, x1, ..)], indexing='xy': the result has numpy shape
    (len(x1), len(x0), len(x2), ..), and x_i varies along "its" axis. *)
Definition axis_of (k i : nat) : nat :=                   (* position in a last axis first index *)
  (k - 1 - (if Nat.ltb k 2 then i else match i with 0 => 1 | 1 => 0 | _ => i end))%nat.
Definition mesh_shape (xs : list (list R)) : list nat :=
  rev (map (@List.length R) (match xs with a :: b :: r => b :: a :: r | _ => xs end)).
Definition mesh (xs : list (list R)) (i : nat) : nd :=
  {| shp := mesh_shape xs; val := fun j => nth (nth (axis_of (List.length xs) i) j 0%nat) (nth i xs []) 0 |}.

(** A drawn line: its points and, for more than one independent variable, the ends of the error bars. *)
Record plot := { pl_x : list R; pl_y : nd; pl_err : list (R * R) }.
Record guess := {
  gu_xlim : dict sym (R * R);             (* x_mins, x_maxs *)
  gu_ylim : dict sym (R * R);
  gu_points : dict sym (list R);          (* _x_points *)
  gu_grid : dict sym nd;                  (* _x_grid *)
  gu_limits : dict sym (R * R);           (* ends of the sliders *)
  gu_slider : dict sym R;                 (* their current values *)
  gu_plots : dict (sym * sym) plot
}.

Section Guess.
  (** [initial]: the model has an attribute [initial] (ODEModel); [n]: n_points; [percentile] *)
  Context (om : omodel) (initial : bool) (n : nat) (percentile : R * R)
          (clip : R -> R -> R -> R) (pct : list R -> R -> res R).

  (** fit.py:156-176 [independent_data], [dependent_data] *)
  Definition independent_data (d : dict kwkey datum) : res (dict sym datum) :=
    l <- mapM (fun v => x <- dlook d (KSym v) ;; Ok (v, x)) (om_indep om) ;; Ok (dict_of l).
  Definition dependent_data (d : dict kwkey datum) : dict sym datum :=
    dict_of (concat (map (fun v => match dget d (KSym v) with Some x => [(v, x)] | None => [] end) (om_dep om))).

  (** interactive_guess.py:64-74: stretched by 10% of the range; not to the left for models with [initial] *)
  Definition x_window (x : datum) : res (R * R) :=
    '(lo, hi) <- extremes x ;;
    let range := hi - lo in
    Ok (if initial then lo else lo - / 10 * range, hi + / 10 * range).
  (** interactive_guess.py:86-91 *)
  Definition y_window (x : datum) : res (R * R) :=
    '(lo, hi) <- extremes x ;;
    let range := hi - lo in Ok (lo - / 10 * range, hi + / 10 * range).

  (** interactive_guess.py:212-220 [_eval_model]; [getattr(.., y.name)] of the result *)
  Definition eval_model (h : heap) (grid : dict sym nd) : res (dict sym nd) :=
    let arguments := dupdate (map (fun kv => (KSym (fst kv), snd kv)) grid)
                             (dict_of (map (fun p => (KSym p, scalar (p_value (h p)))) (om_params om))) in
    om_call om (key2str arguments).
  Definition output_of (r : dict sym nd) (y : sym) : res nd := mo_attr {| mo_vars := dkeys r; mo_out := map snd r |} (sname y).

  (** interactive_guess.py:62-63 *)
  Definition projections : list (sym * sym) := concat (map (fun x => map (fun y => (x, y)) (om_dep om)) (om_indep om)).
  (** interactive_guess.py:56-59: more than one independent variable *)
  Definition many (points : dict sym (list R)) : bool := Nat.ltb 1 (List.length points).

  (** interactive_guess.py:250-258, 305-314 [plot_model]: matplotlib wants as many y as x values *)
  Definition plot_model (h : heap) (points : dict sym (list R)) (grid : dict sym nd) (xy : sym * sym) : res plot :=
    r <- eval_model h grid ;;
    ys <- output_of r (snd xy) ;;
    xs <- (if many points then g <- dlook grid (fst xy) ;; Ok (values g) else dlook points (fst xy)) ;;
    if list_eq_dec Nat.eq_dec (shp ys) [List.length xs] then Ok {| pl_x := xs; pl_y := ys; pl_err := [] |} else Raise ValueError.

  (** interactive_guess.py:260-268 Strategy2D.update_plot *)
  Definition update_2d (h : heap) (points : dict sym (list R)) (grid : dict sym nd) (xy : sym * sym) : res plot :=
    r <- eval_model h grid ;;
    ys <- output_of r (snd xy) ;;
    xs <- dlook points (fst xy) ;;
    Ok {| pl_x := xs; pl_y := ys; pl_err := [] |}.

  (** interactive_guess.py:316-353 StrategynD.update_plot; [y_vals[idx_mask]] wants arrays of the same shape *)
  Definition masked (xvals yvals : list R) (x : R) : list R :=
    map snd (filter (fun p => if Req_EM_T (fst p) x then true else false) (combine xvals yvals)).
  Definition mean (l : list R) : R := Rsum l / INR (List.length l).
  Definition update_nd (h : heap) (points : dict sym (list R)) (grid : dict sym nd) (xy : sym * sym) : res plot :=
    r <- eval_model h grid ;;
    ys <- output_of r (snd xy) ;;
    g <- dlook grid (fst xy) ;;
    xs <- dlook points (fst xy) ;;
    l <- mapM (fun x =>
           if list_eq_dec Nat.eq_dec (shp ys) (shp g) then
             let m := masked (values g) (values ys) x in
             lo <- pct m (fst percentile) ;;
             hi <- pct m (snd percentile) ;;
             Ok (x, mean m, (lo, hi))                                       (* 332-341 *)
           else Raise IndexError) xs ;;
    Ok {| pl_x := map (fun t => fst (fst t)) l;
          pl_y := arr1 (map (fun t => snd (fst t)) l);
          pl_err := map (fun t => (fst (snd t) + snd (fst t), snd (snd t) + snd (fst t))) l |}.   (* 348 *)
  Definition update_one (h : heap) (points : dict sym (list R)) (grid : dict sym nd) (xy : sym * sym) : res plot :=
    if many points then update_nd h points grid xy else update_2d h points grid xy.

  (** interactive_guess.py:201-210 [_update_plot]: every parameter gets the value of its slider, then
      every line is recomputed. *)
  Definition set_value (h : heap) (p : sym) (v : R) : heap :=
    fun q => if eq_dec q p then {| p_value := v; p_min := p_min (h q); p_max := p_max (h q); p_fixed := p_fixed (h q) |} else h q.
  Definition read_sliders (h : heap) (sl : dict sym R) : res heap :=
    foldM (fun h p => v <- dlook sl p ;; Ok (set_value h p v)) h (om_params om).
  Definition update_plot (h : heap) (g : guess) : res (heap * guess) :=
    h' <- read_sliders h (gu_slider g) ;;
    plots <- foldM (fun d xy => pl <- update_one h' (gu_points g) (gu_grid g) xy ;; Ok (dset d xy pl)) (gu_plots g) projections ;;
    Ok (h', {| gu_xlim := gu_xlim g; gu_ylim := gu_ylim g; gu_points := gu_points g; gu_grid := gu_grid g;
               gu_limits := gu_limits g; gu_slider := gu_slider g; gu_plots := plots |}).
  (** The user moves the slider of [p] to [v]: matplotlib stores the value and calls [_update_plot]. *)
  Definition move (h : heap) (g : guess) (p : sym) (v : R) : res (heap * guess) :=
    _ <- dlook (gu_slider g) p ;;
    update_plot h {| gu_xlim := gu_xlim g; gu_ylim := gu_ylim g; gu_points := gu_points g; gu_grid := gu_grid g;
                     gu_limits := gu_limits g; gu_slider := dset (gu_slider g) p v; gu_plots := gu_plots g |}.

  (** interactive_guess.py:159-187 [_set_up_sliders] *)
  Definition slider_limits (a : pattr) : R * R :=
    (match p_min a with Some l => l | None => 0 end, match p_max a with Some u => u | None => 2 * p_value a end).

  (** interactive_guess.py:24-98 [__init__] *)
  Definition guess_init (h : heap) (args : list datum) (kw : dict string datum) : res (heap * guess) :=
    s <- takes_signature om ;;
    t <- takes_data_args om s None args kw ;;
    ind <- independent_data (td_data t) ;;
    xlim <- mapM (fun kx => w <- x_window (snd kx) ;; Ok (fst kx, w)) ind ;;
    let points := map (fun kw => (fst kw, linspace (fst (snd kw)) (snd (snd kw)) n)) xlim in
    let cols := map snd points in
    let grid := map (fun ik => (fst (snd ik), flatten (mesh cols (fst ik)))) (combine (seq 0 (List.length points)) points) in
    ylim <- mapM (fun kx => w <- y_window (snd kx) ;; Ok (fst kx, w)) (dependent_data (td_data t)) ;;
    _ <- (match projections with [] => Raise ZeroDivisionError | _ => Ok tt end) ;;    (* 131-132: division by nrows = 0 *)
    plots <- foldM (fun d xy => pl <- plot_model h points grid xy ;; Ok (dset d xy pl)) [] projections ;;
    let limits := dict_of (map (fun p => (p, slider_limits (h p))) (om_params om)) in
    let slider := dict_of (map (fun p => (p, clip (fst (slider_limits (h p))) (snd (slider_limits (h p))) (p_value (h p)))) (om_params om)) in
    update_plot h {| gu_xlim := xlim; gu_ylim := ylim; gu_points := points; gu_grid := grid;
                     gu_limits := limits; gu_slider := slider; gu_plots := plots |}.

  (** A session: the window is opened, then sliders are moved. *)
  Definition session (h : heap) (args : list datum) (kw : dict string datum) (moves : list (sym * R)) : res (heap * guess) :=
    s <- guess_init h args kw ;;
    foldM (fun hg pv => move (fst hg) (snd hg) (fst pv) (snd pv)) s moves.

  (** interactive_guess.py:222-231 [__str__]: the lines "name: value" *)
  Definition guessed (h : heap) : list (string * R) := map (fun p => (sname p, p_value (h p))) (om_params om).
End Guess.
