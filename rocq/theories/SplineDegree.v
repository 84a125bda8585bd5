(* Model of degree elevation, degree reduction and AreGeometricallyEqual
   (src/spl/spline.h:96-121, 209-253, 287-426). *)
From Coq Require Import ZArith List Bool.
From Verif Require Import Base MultiIndex KnotVec Basis VecUtils Spaces SplineEval SplineEdit.
Import ListNotations.
Open Scope Z_scope.

Section SplineDegree.
Context {F : NumOps}.
Implicit Types (s : spline F).

(* spline.h:287-293 ComputeBezierDegreeElevationCoefficients *)
Definition elevation_coefficients (deg : Z) : list F :=
  map (fun i => (nofZ i / (nofZ deg + n1))%num) (zseq 0 (Z.to_nat (deg + 2))).

(* spline.h:300-303 / 317-319: while (knot[c] == knot[c + 1]) ++c; returns the number of steps.
   Fuel: the number of knots (a longer run reads beyond the vector). *)
Fixpoint run_length (fuel : nat) (kv : list F) (c : Z) : Res Z :=
  match fuel with
  | O => UB
  | S f =>
      a <- get_knot kv c ;; b <- get_knot kv (c + 1) ;;
      if (a =? b)%num then n <- run_length f kv (c + 1) ;; Ok (1 + n) else Ok 0
  end.

(* spline.h:295-309 ProduceBezierSegments: for every interior knot, insert copies up to
   multiplicity deg.  State: (current_knot, diff, spline). *)
Definition produce_bezier s (d : nat) : Res (list Z * spline F) :=
  deg <- sp_deg s d ;; kv <- sp_knots s d ;;
  diff0 <- vmake (num_different kv - 2) (deg - 1) ;;
  st <- for_up 0 (num_different kv - 2) (fun i st =>
          let '(c, diff, s') := st in
          kv' <- sp_knots s' d ;;
          r <- run_length (S (length kv')) kv' c ;;
          let c1 := c + r in
          di <- vget diff i ;;
          diff' <- vset diff i (di - r) ;;
          u <- get_knot kv' c1 ;;
          s'' <- insert_knot s' u d (u64 (di - r)) ;;
          Ok (c1 + (di - r) + 1, diff', s'')) (deg + 1, diff0, s) ;;
  Ok (snd (fst st), snd st).

(* spline.h:311-321 RemoveBezierKnots.  The loop bound is re-read in every pass: a removal that
   deletes the last copy of a knot shortens the loop. Fuel: the number of knots. *)
Fixpoint remove_bezier_loop (fuel : nat) s (d : nat) (diff : list Z) (i c : Z) : Res (spline F) :=
  kv <- sp_knots s d ;;
  if i <? num_different kv - 2 then
    match fuel with
    | O => UB
    | S f =>
        u <- get_knot kv c ;;
        di <- vget diff i ;;
        cs <- remove_knot s u d kEpsilon (u64 di) ;;
        kv' <- sp_knots (snd cs) d ;;
        r <- run_length (S (length kv')) kv' c ;;
        remove_bezier_loop f (snd cs) d diff (i + 1) (c + r + 1)
    end
  else Ok s.
Definition remove_bezier s (d : nat) (diff : list Z) : Res (spline F) :=
  deg <- sp_deg s d ;; kv <- sp_knots s d ;;
  remove_bezier_loop (length kv) s d diff 0 (deg + 1).

(* number of lines of control points in direction d: GetNumberOfControlPoints() / points[d] *)
Definition num_lines s (d : nat) : Res Z :=
  n <- num_control_points (sp_ph s) ;; nd <- dget (ph_npts (sp_ph s)) d ;; idiv n nd.

(* spline.h:323-341 GetBezierSegment: the points are stored in homogeneous form *)
Definition bezier_segment s (d : nat) (seg : Z) : Res (list (list F)) :=
  deg <- sp_deg s d ;;
  let width := deg + 1 in
  lines <- num_lines s d ;;
  cps0 <- vmake (width * lines) (repeat n0 (Z.to_nat (sp_pdim s + 1))) ;;
  mih_loop (ph_npts (sp_ph s)) (fun h cps =>
    i <- dget (mcur h) d ;;
    if (i >=? seg * width - seg) && (i <? (seg + 1) * width - seg) then
      let index := (i + seg) mod width + extract_dimension h d * width in
      w <- get_weight (sp_ph s) (mcur h) ;;
      cp <- get_control_point (sp_ph s) (mcur h) ;;
      vset cps index (map (fun x => x * w)%num cp ++ [w])
    else Ok cps) cps0.

(* MultiIndexHandler<2>({width, lines}).Get1DIndex({j, i}) *)
Definition ix2 (width j i : Z) : Z := i * width + j.

(* spline.h:343-359 DegreeElevateBezierSegment (the handler lengths do not enter Get1DIndex
   beyond the first one) *)
Definition elevate_segment (deg pdim lines : Z) (cps : list (list F)) (alpha : list F) : Res (list (list F)) :=
  let width := deg + 2 in
  new0 <- vmake (width * lines) (repeat n0 (Z.to_nat (pdim + 1))) ;;
  for_up 0 lines (fun i new =>
    a <- vget cps (ix2 (width - 1) 0 i) ;;
    new <- vset new (ix2 width 0 i) a ;;
    b <- vget cps (ix2 (width - 1) (width - 2) i) ;;
    new <- vset new (ix2 width (width - 1) i) b ;;
    for_up 1 deg (fun j new =>
      x <- vget cps (ix2 (width - 1) j i) ;;
      y <- vget cps (ix2 (width - 1) (j - 1) i) ;;
      al <- vget alpha j ;;
      z <- cp_add (cp_scale x (n1 - al)%num) (cp_scale y al) ;;
      vset new (ix2 width j i) z) new) new0.

(* spline.h:405, b_spline.h:241-243, nurbs.h:440-442 SetNewControlPoint *)
Definition set_new_control_point (ph : phys F) (cp : list F) (w : F) (idx : list Z) : Res (phys F) :=
  ph' <- set_control_point ph (ph_npts ph) idx cp ;;
  match ph_wts ph with
  | None => Ok ph'
  | Some _ => set_weight ph' (ph_npts ph') idx w
  end.

(* spline.h:407-426 SetNewBezierSegmentControlPoints.  index_in_dir / 0 is undefined behaviour;
   segments.size() - 1 is a size_t. *)
Definition set_segments s (d : nat) (segments : list (list (list F))) : Res (spline F) :=
  deg <- sp_deg s d ;;
  let width := deg + 1 in
  ph' <- mih_loop (ph_npts (sp_ph s)) (fun h ph =>
    i <- dget (mcur h) d ;;
    seg0 <- idiv i (width - 1) ;;
    let over := seg0 >? u64 (zlen segments - 1) in
    let seg := if over then seg0 - 1 else seg0 in
    let index := (if over then width - 1 else Z.rem i (width - 1)) + extract_dimension h d * width in
    sg <- vget segments seg ;;
    hp <- vget sg index ;;
    w <- vget hp (ph_dim ph) ;;
    cp <- mapM (fun j => x <- vget hp j ;; Ok (x / w)%num) (zseq 0 (Z.to_nat (ph_dim ph))) ;;
    set_new_control_point ph cp w (mcur h)) (sp_ph s) ;;
  Ok (with_ph s ph').

(* spline.h:209-227 ElevateDegreeForDimension *)
Definition elevate_degree s (d : nat) : Res (spline F) :=
  kv0 <- sp_knots s d ;; deg <- sp_deg s d ;;
  let nseg := num_different kv0 - 1 in
  let alpha := elevation_coefficients deg in
  ' (diff, s1) <- produce_bezier s d ;;
  lines <- num_lines s1 d ;;
  segs <- mapM (fun i => c <- bezier_segment s1 d i ;; elevate_segment deg (sp_pdim s1) lines c alpha)
               (zseq 0 (Z.to_nat nseg)) ;;
  kv1 <- sp_knots s1 d ;;
  lens <- npts_at (sp_ph s1) d (fun n => n + (num_different kv1 - 1)) ;;
  let ph2 := set_npts (sp_ph s1) lens in
  n <- num_control_points ph2 ;;
  let ph3 := add_control_points ph2 (total lens - n) in
  ps2 <- ps_change_degree (sp_ps s1) d 1 ;;
  ps3 <- ps_increment_all ps2 d ;;
  s4 <- set_segments (mkSpline ps3 ph3) d segs ;;
  remove_bezier s4 d diff.

(* spline.h:361-403 DegreeReduceBezierSegment: new points and the flag *successful *)
Definition reduce_segment (deg pdim lines : Z) (cps : list (list F)) (tolerance : F)
    : Res (list (list F) * bool) :=
  let nd := deg - 1 in
  let r := Z.quot nd 2 in
  let old j i := ix2 (deg + 1) j i in
  let nw j i := ix2 deg j i in
  let odd := negb (Z.rem (nd + 1) 2 =? 0) in
  let alpha_r := (nofZ r / nofZ (nd + 1))%num in
  let alpha_r_plus := (nofZ (r + 1) / nofZ (nd + 1))%num in
  let half := (n1 / (n1 + n1))%num in
  new0 <- vmake (deg * lines) (repeat n0 (Z.to_nat (pdim + 1))) ;;
  st <- for_up 0 lines (fun i st =>
    let '(new, err) := st in
    a <- vget cps (old 0 i) ;; new <- vset new (nw 0 i) a ;;
    b <- vget cps (old (nd + 1) i) ;; new <- vset new (nw nd i) b ;;
    new <- for_up 1 ((if odd then r - 1 else r) + 1) (fun j new =>
      let al := (nofZ j / nofZ (nd + 1))%num in
      q <- vget cps (old j i) ;; p <- vget new (nw (j - 1) i) ;;
      z <- cp_sub q (cp_scale p al) ;;
      vset new (nw j i) (cp_scale z (n1 / (n1 - al))%num)) new ;;
    new <- foldM (fun new j =>
      let al := (nofZ (j + 1) / nofZ (nd + 1))%num in
      q <- vget cps (old (j + 1) i) ;; p <- vget new (nw (j + 1) i) ;;
      z <- cp_sub q (cp_scale p (n1 - al)%num) ;;
      vset new (nw j i) (cp_scale z (n1 / al)%num)) (rev (zseq (r + 1) (Z.to_nat (nd - 1 - r)))) new ;;
    if odd then
      q <- vget cps (old r i) ;; p <- vget new (nw (r - 1) i) ;;
      zl <- cp_sub q (cp_scale p alpha_r) ;;
      let pl := cp_scale zl (n1 / (n1 - alpha_r))%num in
      q2 <- vget cps (old (r + 1) i) ;; p2 <- vget new (nw (r + 1) i) ;;
      zr <- cp_sub q2 (cp_scale p2 (n1 - alpha_r_plus)%num) ;;
      let pr := cp_scale zr (n1 / alpha_r_plus)%num in
      m <- cp_add pl pr ;;
      new <- vset new (nw r i) (cp_scale m half) ;;
      e <- cp_sub pl pr ;;
      Ok (new, if (err <? cp_norm e)%num then cp_norm e else err)
    else
      q <- vget cps (old (r + 1) i) ;;
      p <- vget new (nw r i) ;; p2 <- vget new (nw (r + 1) i) ;;
      m <- cp_add p p2 ;;
      e <- cp_sub q (cp_scale m half) ;;
      Ok (new, if (err <? cp_norm e)%num then cp_norm e else err)) (new0, n0) ;;
  Ok (fst st, (snd st <? tolerance)%num).

(* spline.h:233-241: reduce the segments until one fails *)
Fixpoint reduce_segments s (d : nat) (deg lines : Z) (tolerance : F) (ids : list Z)
    : Res (option (list (list (list F)))) :=
  match ids with
  | [] => Ok (Some [])
  | i :: t =>
      c <- bezier_segment s d i ;;
      r <- reduce_segment deg (sp_pdim s) lines c tolerance ;;
      if (snd r : bool) then
        rest <- reduce_segments s d deg lines tolerance t ;;
        Ok (option_map (cons (fst r)) rest)
      else Ok None
  end.

(* spline.h:229-253 ReduceDegreeForDimension *)
Definition reduce_degree s (d : nat) (tolerance : F) : Res (bool * spline F) :=
  deg <- sp_deg s d ;;
  ' (diff, s1) <- produce_bezier s d ;;
  kv1 <- sp_knots s1 d ;;
  let nseg := num_different kv1 - 1 in
  lines <- num_lines s1 d ;;
  r <- reduce_segments s1 d deg lines tolerance (zseq 0 (Z.to_nat nseg)) ;;
  match r with
  | None => s2 <- remove_bezier s1 d diff ;; Ok (false, s2)
  | Some segs =>
      lens <- npts_at (sp_ph s1) d (fun n => n - nseg) ;;
      let ph2 := set_npts (sp_ph s1) lens in
      n <- num_control_points ph2 ;;
      ph3 <- remove_control_points ph2 (n - total lens) ;;
      ps2 <- ps_change_degree (sp_ps s1) d (-1) ;;
      ps3 <- ps_decrement_all ps2 d ;;
      s4 <- set_segments (mkSpline ps3 ph3) d segs ;;
      s5 <- remove_bezier s4 d diff ;;
      Ok (true, s5)
  end.

(* spline.h:96-121 AreGeometricallyEqual.  [number] is ceil(pow(100, 1.0 / DIM)) (a parameter:
   100 for curves, 10 for surfaces, 5 for volumes). *)
Definition geometrically_equal s (rhs : spline F) (tolerance : F) (number : Z) : Res bool :=
  let dims := zseq 0 (Z.to_nat (sp_pdim s)) in
  let lens := map (fun _ => number + 1) (ps_degs (sp_ps s)) in
  mih_loop lens (fun h acc =>
    if (acc : bool) then
      us <- mapM (fun x => l <- last_knot (fst x) ;; f <- get_knot (fst x) 0 ;;
                           Ok ((l - f) / nofZ number * nofZ (snd x))%num)
                 (combine (ps_knots (sp_ps s)) (mcur h)) ;;
      a <- evaluate s us dims ;;
      b <- evaluate rhs us dims ;;
      dist <- distance a b ;;
      Ok (negb (tolerance <? dist)%num)
    else Ok false) true.

End SplineDegree.
