(* Objects and pointers: which spline objects share knot vectors, parameter spaces and physical spaces
   (std::shared_ptr members of src/spl/spline.h, b_spline.h, nurbs.h, parameter_space.h and the
   generators).  Objects are never freed here.  Positions in the three lists are the addresses. *)
From Coq Require Import ZArith List Bool.
From Verif Require Import Base MultiIndex KnotVec Basis Spaces SplineEval SplineEdit SplineDegree.
Import ListNotations.
Open Scope Z_scope.

(* an address *)
Notation loc := nat (only parsing).

Section Heap.
Context {F : NumOps}.


(* parameter_space.h:246-248 (knot_vector_, degree_, basis_functions_): knot_vector_ is an array of shared pointers *)
Record pcell := mkPC { pc_knots : list loc; pc_degs : list Z; pc_bfs : list (list (bf F)) }.
Record heap := mkHeap { h_kv : list (list F); h_ps : list pcell; h_ph : list (phys F) }.
(* spline.h:428 parameter_space_, b_spline.h:245 / nurbs.h:444 physical_space_; a generator
   (spline_generator.h:38, b_spline_generator.h:51, nurbs_generator.h:52) has the same two members *)
Record obj := mkObj { o_ps : loc; o_ph : loc }.

(* what the member functions of an object see *)
Definition view_ps (h : heap) (c : pcell) : Res (pspace F) :=
  ks <- mapM (dget (h_kv h)) (pc_knots c) ;; Ok (mkPS ks (pc_degs c) (pc_bfs c)).
Definition view (h : heap) (o : obj) : Res (spline F) :=
  c <- dget (h_ps h) (o_ps o) ;; ps <- view_ps h c ;; ph <- dget (h_ph h) (o_ph o) ;; Ok (mkSpline ps ph).

(* parameter_space.h:153-156 InsertKnot, 158-161 RemoveKnot: the KnotVector object is changed in place,
   the basis functions of this parameter space only are recreated *)
Definition h_edit (f : list F -> Res (list F)) (h : heap) (l : loc) (d : nat) : Res heap :=
  c <- dget (h_ps h) l ;; k <- dget (pc_knots c) d ;; kv <- dget (h_kv h) k ;;
  kv' <- f kv ;;
  let kvs := upd (h_kv h) k kv' in
  ks <- mapM (dget kvs) (pc_knots c) ;;
  b <- create_bases ks (pc_degs c) ;;
  Ok (mkHeap kvs (upd (h_ps h) l (mkPC (pc_knots c) (pc_degs c) b)) (h_ph h)).
Definition h_insert (h : heap) (l : loc) (u : F) (d : nat) : Res heap := h_edit (fun kv => kv_insert kv u) h l d.
Definition h_remove (h : heap) (l : loc) (u : F) (d : nat) : Res heap := h_edit (fun kv => kv_remove kv u) h l d.
(* parameter_space.h:163-171 ElevateDegree, ReduceDegree *)
Definition h_degree (h : heap) (l : loc) (d : nat) (delta : Z) : Res heap :=
  c <- dget (h_ps h) l ;; q <- dget (pc_degs c) d ;;
  let degs := upd (pc_degs c) d (q + delta) in
  ks <- mapM (dget (h_kv h)) (pc_knots c) ;;
  b <- create_bases ks degs ;;
  Ok (mkHeap (h_kv h) (upd (h_ps h) l (mkPC (pc_knots c) degs b)) (h_ph h)).
(* any change of the members of a physical space (all are values) *)
Definition h_set_ph (h : heap) (l : loc) (ph : phys F) : Res heap :=
  _ <- dget (h_ph h) l ;; Ok (mkHeap (h_kv h) (h_ps h) (upd (h_ph h) l ph)).

(* What a member function can do with its object: look at it, insert or remove a knot, change a degree,
   change the physical space, return or throw. *)
Inductive prog (A : Type) : Type :=
| PRes (r : Res A)
| PSee (k : spline F -> prog A)
| PIns (u : F) (d : nat) (k : prog A)
| PRem (u : F) (d : nat) (k : prog A)
| PDeg (d : nat) (delta : Z) (k : prog A)
| PPhys (ph : phys F) (k : prog A).
Arguments PRes {A}. Arguments PSee {A}. Arguments PIns {A}. Arguments PRem {A}. Arguments PDeg {A}. Arguments PPhys {A}.

(* on the objects; the heap that an exception leaves behind is kept *)
Definition after {S T A} (m : Res S) (h : T) (k : S -> Res A * T) : Res A * T :=
  match m with Ok x => k x | Throw e => (Throw e, h) | UB => (UB, h) end.
Fixpoint run_h {A} (p : prog A) (h : heap) (o : obj) : Res A * heap :=
  match p with
  | PRes r => (r, h)
  | PSee k => after (view h o) h (fun s => run_h (k s) h o)
  | PIns u d k => after (h_insert h (o_ps o) u d) h (fun h' => run_h k h' o)
  | PRem u d k => after (h_remove h (o_ps o) u d) h (fun h' => run_h k h' o)
  | PDeg d delta k => after (h_degree h (o_ps o) d delta) h (fun h' => run_h k h' o)
  | PPhys ph k => after (h_set_ph h (o_ph o) ph) h (fun h' => run_h k h' o)
  end.
(* on a value of its own *)
Fixpoint run_v {A} (p : prog A) (s : spline F) : Res A * spline F :=
  match p with
  | PRes r => (r, s)
  | PSee k => run_v (k s) s
  | PIns u d k => after (ps_insert (sp_ps s) u d) s (fun ps => run_v k (with_ps s ps))
  | PRem u d k => after (ps_remove (sp_ps s) u d) s (fun ps => run_v k (with_ps s ps))
  | PDeg d delta k => after (ps_change_degree (sp_ps s) d delta) s (fun ps => run_v k (with_ps s ps))
  | PPhys ph k => run_v k (with_ph s ph)
  end.

Fixpoint pbind {A B} (m : prog A) (f : A -> prog B) : prog B :=
  match m with
  | PRes (Ok a) => f a
  | PRes (Throw e) => PRes (Throw e)
  | PRes UB => PRes UB
  | PSee k => PSee (fun s => pbind (k s) f)
  | PIns u d k => PIns u d (pbind k f)
  | PRem u d k => PRem u d (pbind k f)
  | PDeg d delta k => PDeg d delta (pbind k f)
  | PPhys ph k => PPhys ph (pbind k f)
  end.
Definition see : prog (spline F) := PSee (fun s => PRes (Ok s)).
Fixpoint pfor {S} (n : nat) (i : Z) (body : Z -> S -> prog S) (s : S) : prog S :=
  match n with O => PRes (Ok s) | Datatypes.S n' => pbind (body i s) (fun s' => pfor n' (i + 1) body s') end.

(* spline.h:163-181 InsertKnot.  The passes of the first loop are one change of the physical space: a pass
   that goes wrong leaves it unchanged here. *)
Definition insert_p (u : F) (d : nat) (mult : Z) : prog unit :=
  pbind see (fun s =>
  pbind (PRes (kv <- sp_knots s d ;; k <- knot_span kv u ;; deg <- sp_deg s d ;;
               st <- for_up 1 (mult + 1) (insert_pass kv deg u d) (k, sp_ph s) ;; Ok (snd st))) (fun ph =>
  PPhys ph (pfor (Z.to_nat (mult - 0)) 0 (fun _ _ => PIns u d (PRes (Ok tt))) tt))).
(* 183-187 RefineKnots *)
Fixpoint refine_p (us : list F) (d : nat) : prog unit :=
  match us with [] => PRes (Ok tt) | u :: t => pbind (insert_p u d 1) (fun _ => refine_p t d) end.
(* 189-207 RemoveKnot *)
Fixpoint remove_loop_p (n : nat) (u : F) (d : nat) (tolerance : F) : prog Z :=
  match n with
  | O => PRes (Ok 0)
  | S n' =>
      pbind see (fun s =>
      pbind (PRes (kv <- sp_knots s d ;; k <- knot_span kv u ;; deg <- sp_deg s d ;;
                   scaling <- remove_scaling (S (length kv)) kv u deg (u64 (k - deg)) (u64 (k - multiplicity kv u)) ;;
                   remove_points (sp_ph s) scaling (k - deg) (i32 (u64 (k - multiplicity kv u))) d tolerance)) (fun r =>
      match r with
      | None => PRes (Ok 0)
      | Some ph => PPhys ph (PRem u d (pbind (remove_loop_p n' u d tolerance) (fun c => PRes (Ok (1 + c)))))
      end))
  end.
Definition remove_p (u : F) (d : nat) (tolerance : F) (mult : Z) : prog Z := remove_loop_p (Z.to_nat mult) u d tolerance.
(* 295-309 ProduceBezierSegments *)
Definition produce_p (d : nat) : prog (list Z) :=
  pbind see (fun s =>
  pbind (PRes (deg <- sp_deg s d ;; kv <- sp_knots s d ;; diff0 <- vmake (num_different kv - 2) (deg - 1) ;;
               Ok (deg, num_different kv, diff0))) (fun '(deg, nd, diff0) =>
  pbind (pfor (Z.to_nat (nd - 2 - 0)) 0 (fun i '(c, diff) =>
    pbind see (fun s' =>
    pbind (PRes (kv' <- sp_knots s' d ;; r <- run_length (S (length kv')) kv' c ;;
                 di <- vget diff i ;; diff' <- vset diff i (di - r) ;; u <- get_knot kv' (c + r) ;;
                 Ok (r, di, diff', u))) (fun '(r, di, diff', u) =>
    pbind (insert_p u d (u64 (di - r))) (fun _ => PRes (Ok (c + r + (di - r) + 1, diff')))))) (deg + 1, diff0)) (fun st =>
  PRes (Ok (snd st))))).
(* 311-321 RemoveBezierKnots *)
Fixpoint remove_bezier_loop_p (fuel : nat) (d : nat) (diff : list Z) (i c : Z) : prog unit :=
  pbind see (fun s =>
  pbind (PRes (sp_knots s d)) (fun kv =>
  if i <? num_different kv - 2 then
    match fuel with
    | O => PRes UB
    | S f =>
        pbind (PRes (u <- get_knot kv c ;; di <- vget diff i ;; Ok (u, di))) (fun '(u, di) =>
        pbind (remove_p u d kEpsilon (u64 di)) (fun _ =>
        pbind see (fun s' =>
        pbind (PRes (kv' <- sp_knots s' d ;; run_length (S (length kv')) kv' c)) (fun r =>
        remove_bezier_loop_p f d diff (i + 1) (c + r + 1)))))
    end
  else PRes (Ok tt))).
Definition remove_bezier_p (d : nat) (diff : list Z) : prog unit :=
  pbind see (fun s =>
  pbind (PRes (deg <- sp_deg s d ;; kv <- sp_knots s d ;; Ok (deg, length kv))) (fun '(deg, n) =>
  remove_bezier_loop_p n d diff 0 (deg + 1))).
(* 407-426 SetNewBezierSegmentControlPoints *)
Definition set_segments_p (d : nat) (segments : list (list (list F))) : prog unit :=
  pbind see (fun s => pbind (PRes (set_segments s d segments)) (fun s' => PPhys (sp_ph s') (PRes (Ok tt)))).
(* parameter_space.h:173-189 IncrementMultiplicityOfAllKnots, DecrementMultiplicityOfAllKnots *)
Definition all_knots_p (one : F -> nat -> prog unit -> prog unit) (d : nat) : prog unit :=
  pbind see (fun s =>
  pbind (PRes (kv <- sp_knots s d ;; if num_different kv <? zlen (unique_copy kv) then UB else Ok (unique_copy kv))) (fun uk =>
  fold_right (fun u k => one u d k) (PRes (Ok tt)) uk)).
(* 209-227 ElevateDegreeForDimension *)
Definition elevate_p (d : nat) : prog unit :=
  pbind see (fun s =>
  pbind (PRes (kv0 <- sp_knots s d ;; deg <- sp_deg s d ;; Ok (num_different kv0 - 1, deg))) (fun '(nseg, deg) =>
  pbind (produce_p d) (fun diff =>
  pbind see (fun s1 =>
  pbind (PRes (lines <- num_lines s1 d ;;
               segs <- mapM (fun i => c <- bezier_segment s1 d i ;; elevate_segment deg (sp_pdim s1) lines c (elevation_coefficients deg))
                            (zseq 0 (Z.to_nat nseg)) ;;
               kv1 <- sp_knots s1 d ;;
               lens <- npts_at (sp_ph s1) d (fun n => n + (num_different kv1 - 1)) ;;
               n <- num_control_points (set_npts (sp_ph s1) lens) ;;
               Ok (segs, add_control_points (set_npts (sp_ph s1) lens) (total lens - n)))) (fun '(segs, ph3) =>
  PPhys ph3 (PDeg d 1
  (pbind (all_knots_p PIns d) (fun _ =>
  pbind (set_segments_p d segs) (fun _ => remove_bezier_p d diff))))))))).
(* 229-253 ReduceDegreeForDimension *)
Definition reduce_p (d : nat) (tolerance : F) : prog bool :=
  pbind see (fun s =>
  pbind (PRes (sp_deg s d)) (fun deg =>
  pbind (produce_p d) (fun diff =>
  pbind see (fun s1 =>
  pbind (PRes (kv1 <- sp_knots s1 d ;; lines <- num_lines s1 d ;;
               r <- reduce_segments s1 d deg lines tolerance (zseq 0 (Z.to_nat (num_different kv1 - 1))) ;;
               Ok (num_different kv1 - 1, r))) (fun '(nseg, r) =>
  match r with
  | None => pbind (remove_bezier_p d diff) (fun _ => PRes (Ok false))
  | Some segs =>
      pbind (PRes (lens <- npts_at (sp_ph s1) d (fun n => n - nseg) ;;
                   n <- num_control_points (set_npts (sp_ph s1) lens) ;;
                   remove_control_points (set_npts (sp_ph s1) lens) (n - total lens))) (fun ph3 =>
      PPhys ph3 (PDeg d (-1)
      (pbind (all_knots_p PRem d) (fun _ =>
      pbind (set_segments_p d segs) (fun _ =>
      pbind (remove_bezier_p d diff) (fun _ => PRes (Ok true)))))))
  end))))).

(* parameter_space.h:48-61 copy constructor followed by make_shared: new KnotVector objects with the
   values of the old ones, a new parameter space *)
Definition alloc_ps (h : heap) (ks : list (list F)) (degs : list Z) (b : list (list (bf F))) : loc * heap :=
  (length (h_ps h),
   mkHeap (h_kv h ++ ks) (h_ps h ++ [mkPC (seq (length (h_kv h)) (length ks)) degs b]) (h_ph h)).
Definition alloc_ph (h : heap) (ph : phys F) : loc * heap :=
  (length (h_ph h), mkHeap (h_kv h) (h_ps h) (h_ph h ++ [ph])).
Definition alloc (h : heap) (s : spline F) : obj * heap :=
  let '(p, h1) := alloc_ps h (ps_knots (sp_ps s)) (ps_degs (sp_ps s)) (ps_bfs (sp_ps s)) in
  let '(q, h2) := alloc_ph h1 (sp_ph s) in (mkObj p q, h2).
(* spline.h:44-47, b_spline.h:48-51, nurbs.h:48-51 copy constructors *)
Definition copy_h (h : heap) (o : obj) : Res (obj * heap) :=
  s <- view h o ;; s' <- spline_copy s ;; Ok (alloc h s').
(* spline.h:38-40 and b_spline.h:35-42, nurbs.h:33-42: constructors given KnotVector objects.
   make_shared<ParameterSpace>(ParameterSpace(...)) calls the copy constructor *)
Definition new_h (h : heap) (kvs : list loc) (degs : list Z) (cps : list (list F)) (wts : option (list F)) : Res (obj * heap) :=
  ks <- mapM (dget (h_kv h)) kvs ;; s <- spline_new ks degs cps wts ;; s' <- spline_copy s ;; Ok (alloc h s').
(* b_spline_generator.h:31-38 with spline_generator.h:29-31: the same *)
Definition b_generator_h (h : heap) (kvs : list loc) (degs : list Z) (cps : list (list F)) : Res (obj * heap) :=
  new_h h kvs degs cps None.
(* nurbs_generator.h:30-39: the physical space first; make_shared<ParameterSpace>(knot_vector, degree)
   keeps the KnotVector objects (parameter_space.h:36-46) *)
Definition n_generator_h (h : heap) (kvs : list loc) (degs : list Z) (cps : list (list F)) (wts : list F) : Res (obj * heap) :=
  ks <- mapM (dget (h_kv h)) kvs ;;
  ph <- wphys_new cps wts (map (fun kp => zlen (fst kp) - snd kp - 1) (combine ks degs)) ;;
  p <- ps_new ks degs ;;
  Ok (mkObj (length (h_ps h)) (length (h_ph h)),
      mkHeap (h_kv h) (h_ps h ++ [mkPC kvs degs (ps_bfs p)]) (h_ph h ++ [ph])).
(* b_spline.h:44-46, nurbs.h:44-46: the spline keeps the pointers of the generator *)
Definition from_generator (g : obj) : obj := mkObj (o_ps g) (o_ph g).
(* spline.h:30-47, b_spline.h:32-53, nurbs.h:31-60: a copy constructor and a destructor but no copy assignment
   are declared, so [a = b] is the implicit one: both pointers of [b] (spline.h:428, b_spline.h:245, nurbs.h:444)
   are assigned to [a] *)
Definition assigned (a b : obj) : obj := mkObj (o_ps b) (o_ph b).
(* b_spline.h:93-111, nurbs.h:107-128 SudivideSpline: inserts knots into the receiver and creates two
   objects *)
Definition subdivide_h (h : heap) (o : obj) (u : F) (d : nat) : Res (obj * obj * heap) :=
  s <- view h o ;; deg <- sp_deg s d ;; kv <- sp_knots s d ;;
  let '(r, h1) := run_h (insert_p u d (u64 (deg + 1 - multiplicity kv u))) h o in
  _ <- r ;; s1 <- view h1 o ;;
  ks <- divided_knot_vectors (sp_ps s1) u d ;;
  p1 <- make_piece s1 (fst ks) 0 d ;;
  p2 <- make_piece s1 (snd ks) (fst p1) d ;;
  let '(a, h2) := alloc h1 (snd p1) in
  let '(b, h3) := alloc h2 (snd p2) in Ok (a, b, h3).

(* what a client can do: call a member function of an object, change a KnotVector object it holds a pointer
   to (knot_vector.h InsertKnot, RemoveKnot, operator=), or create objects (any new cells, which may point
   to old ones) *)
Inductive event :=
| Call (A : Type) (o : obj) (p : prog A)
| SetKnots (k : loc) (kv : list F)
| Create (kvs : list (list F)) (cells : list pcell) (phs : list (phys F)).
Definition happen (h : heap) (e : event) : heap :=
  match e with
  | Call _ o p => snd (run_h p h o)
  | SetKnots k kv => mkHeap (upd (h_kv h) k kv) (h_ps h) (h_ph h)
  | Create kvs cells phs => mkHeap (h_kv h ++ kvs) (h_ps h ++ cells) (h_ph h ++ phs)
  end.
Definition happens (h : heap) (es : list event) : heap := fold_left happen es h.
End Heap.
Arguments prog : clear implicits.
Arguments heap : clear implicits.
Arguments pcell : clear implicits.
Arguments event : clear implicits.
Arguments PRes {F A}. Arguments PSee {F A}. Arguments PIns {F A}. Arguments PRem {F A}. Arguments PDeg {F A}.
Arguments PPhys {F A}. Arguments Call {F A}. Arguments SetKnots {F}. Arguments Create {F}.
