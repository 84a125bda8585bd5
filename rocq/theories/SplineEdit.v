(* Model of knot insertion, knot removal, refinement and subdivision
   (src/spl/spline.h:163-207, b_spline.h:60-239, nurbs.h:70-128 and 245-438). *)
From Coq Require Import ZArith List Bool.
From Verif Require Import Base MultiIndex KnotVec Basis VecUtils Spaces SplineEval.
Import ListNotations.
Open Scope Z_scope.

Section SplineEdit.
Context {F : NumOps}.
Implicit Types (s : spline F) (u : F).

Definition with_ph s (ph : phys F) : spline F := mkSpline (sp_ps s) ph.
Definition with_ps s (ps : pspace F) : spline F := mkSpline ps (sp_ph s).

(* --indices[d] *)
Definition dec_at (d : nat) (idx : list Z) : Res (list Z) := i <- dget idx d ;; Ok (upd idx d (i - 1)).

(* nurbs.h:267-282 GetNewWeight *)
Definition new_weight (ph : phys F) (idx : list Z) (d : nat) (scaling : list F) (cur first last : Z) : Res F :=
  if cur >? last then lo <- dec_at d idx ;; get_weight ph lo
  else if cur >=? first then
    lo <- dec_at d idx ;;
    uw <- get_weight ph idx ;; lw <- get_weight ph lo ;;
    a <- vget scaling (cur - first) ;;
    Ok (a * uw + (n1 - a) * lw)%num
  else get_weight ph idx.

(* b_spline.h:132-151 and nurbs.h:245-265 GetNewControlPoint.  In the NURBS case the new point
   also carries the (unused) quotient of the weight coordinate. *)
Definition new_control_point (ph : phys F) (idx : list Z) (d : nat) (scaling : list F)
    (cur first last : Z) : Res (list F) :=
  if cur >? last then lo <- dec_at d idx ;; get_control_point ph lo
  else if cur >=? first then
    lo <- dec_at d idx ;;
    a <- vget scaling (cur - first) ;;
    match ph_wts ph with
    | None =>
        up <- get_control_point ph idx ;; low <- get_control_point ph lo ;;
        Ok (map2 (fun x y => a * x + (n1 - a) * y)%num up low)
    | Some _ =>
        up <- get_homogeneous ph idx ;; low <- get_homogeneous ph lo ;;
        w <- new_weight ph idx d scaling cur first last ;;
        Ok (map2 (fun x y => (a * x + (n1 - a) * y) / w)%num up low)
    end
  else get_control_point ph idx.

(* b_spline.h:60-77 and nurbs.h:70-89 AdjustControlPoints *)
Definition adjust_control_points (ph : phys F) (scaling : list F) (first last : Z) (d : nat) : Res (phys F) :=
  lens <- npts_at ph d (fun n => n + 1) ;;
  maxi <- dget (ph_npts ph) d ;;
  let top := upd (map (fun n => n - 1) (ph_npts ph)) d maxi in
  total_cps <- num_control_points ph ;;
  more <- idiv total_cps maxi ;;
  ph' <- mih_for_down (Z.to_nat (total lens)) (mkMih lens top) (fun h p =>
           cur <- dget (mcur h) d ;;
           cp <- new_control_point p (mcur h) d scaling cur first last ;;
           match ph_wts p with
           | None => set_control_point p lens (mcur h) cp
           | Some _ =>
               w <- new_weight p (mcur h) d scaling cur first last ;;
               p' <- set_control_point p lens (mcur h) cp ;;
               set_weight p' lens (mcur h) w
           end) (add_control_points ph more) ;;
  Ok (set_npts ph' lens).

(* spline.h:171-175: the loop over j with its size_t arithmetic.  The fuel is the number of knots
   plus one: a longer run reads beyond the knot vector. *)
Fixpoint insert_scaling (fuel : nat) (kv : list F) u (deg i j last : Z) : Res (list F) :=
  if j <=? last then
    match fuel with
    | O => UB
    | S f =>
        lo <- get_knot kv j ;; up <- get_knot kv (u64 (j + deg - i + 1)) ;;
        rest <- insert_scaling f kv u deg i (u64 (j + 1)) last ;;
        Ok (((u - lo) / (up - lo))%num :: rest)
    end
  else Ok [].

(* spline.h:166-177: one pass of the loop; state = (knot_span, physical space) *)
Definition insert_pass (kv : list F) (deg : Z) u (d : nat) (i : Z) (st : Z * phys F) : Res (Z * phys F) :=
  b <- is_last_knot kv u ;;
  let k := if (b : bool) then fst st + 1 else fst st in
  let last := u64 (k - multiplicity kv u) in
  let first := u64 (k - deg + i) in
  scaling <- insert_scaling (S (length kv)) kv u deg i first last ;;
  ph' <- adjust_control_points (snd st) scaling (i32 first) (i32 last) d ;;
  Ok (k, ph').

(* spline.h:163-181 InsertKnot *)
Definition insert_knot s u (d : nat) (mult : Z) : Res (spline F) :=
  kv <- sp_knots s d ;;
  k <- knot_span kv u ;;
  deg <- sp_deg s d ;;
  st <- for_up 1 (mult + 1) (insert_pass kv deg u d) (k, sp_ph s) ;;
  ps <- for_up 0 mult (fun _ p => ps_insert p u d) (sp_ps s) ;;
  Ok (mkSpline ps (snd st)).

(* spline.h:183-187 RefineKnots *)
Definition refine_knots s (new_knots : list F) (d : nat) : Res (spline F) :=
  foldM (fun s' u => insert_knot s' u d 1) new_knots s.

(* ------------------------------------------------------------------ *)
(* Removal.  [temp] (and [temp_w]) hold, for every line of control points in direction d,
   last - off + 2 slots. *)

(* nurbs.h:392-398 SetTempNewWeight *)
Definition set_temp_weight (ph : phys F) (h : mih) (temp_w : list F) (alpha : F)
    (x off last : Z) (d : nat) (shift : Z) : Res (list F) :=
  let index := extract_dimension h d * (last - off + 2) in
  w <- get_weight ph (mcur h) ;;
  t <- vget temp_w (index + x - off + shift) ;;
  vset temp_w (index + x - off) ((w - (n1 - alpha) * t) / alpha)%num.

(* b_spline.h:202-210 SetTempNewControlPoint; nurbs.h:353-363 when weights are present *)
Definition set_temp_point (ph : phys F) (temp_w : list F) (h : mih) (temp : list F) (alpha : F)
    (x off last : Z) (d : nat) (shift : Z) : Res (list F) :=
  let index := extract_dimension h d * (last - off + 2) in
  foldM (fun tmp k =>
    match ph_wts ph with
    | None =>
        cp <- get_control_point ph (mcur h) ;; c <- vget cp k ;;
        t <- vget tmp ((index + x - off + shift) * ph_dim ph + k) ;;
        vset tmp ((index + x - off) * ph_dim ph + k) ((c - (n1 - alpha) * t) / alpha)%num
    | Some _ =>
        hp <- get_homogeneous ph (mcur h) ;; c <- vget hp k ;;
        t <- vget tmp ((index + x - off + shift) * ph_dim ph + k) ;;
        ws <- vget temp_w (index + x - off + shift) ;;
        wx <- vget temp_w (index + x - off) ;;
        vset tmp ((index + x - off) * ph_dim ph + k) ((c - (n1 - alpha) * t * ws) / alpha / wx)%num
    end) (zseq 0 (Z.to_nat (ph_dim ph))) temp.

(* b_spline.h:175-200 GetTempNewControlPoints / nurbs.h:326-351, 365-390: the common skeleton.
   [put h tmp alpha x shift] is the SetTemp... call. *)
Definition temp_ends (lens : list Z) (d : nat) (off last : Z)
    (put : mih -> list F -> F -> Z -> Z -> Res (list F)) (temp : list F) : Res (list F) :=
  mih_loop lens (fun h tmp =>
    c <- dget (mcur h) d ;;
    if (c =? off) || (c =? last + 1)
    then put h tmp n1 (if c =? off then off else last + 1) 0
    else Ok tmp) temp.
(* the loop for (; j - i > 0; ++i, --j); fuel: any number >= (j - i + 1) / 2 *)
Fixpoint temp_inner (fuel : nat) (lens : list Z) (d : nat) (scaling : list F) (off : Z)
    (put : mih -> list F -> F -> Z -> Z -> Res (list F)) (i j : Z) (temp : list F) : Res (list F) :=
  if j - i >? 0 then
    match fuel with
    | O => UB
    | S f =>
        temp' <- mih_loop lens (fun h tmp =>
          c <- dget (mcur h) d ;;
          tmp1 <- (if c =? i then a <- vget scaling (i - off - 1) ;; put h tmp a i (-1) else Ok tmp) ;;
          (if c =? j then a <- vget scaling (j - off - 1) ;; put h tmp1 (n1 - a)%num j 1 else Ok tmp1)) temp ;;
        temp_inner f lens d scaling off put (i + 1) (j - 1) temp'
    end
  else Ok temp.

(* nurbs.h:365-390 GetTempNewWeights *)
Definition temp_new_weights (ph : phys F) (scaling : list F) (off last i j : Z) (d : nat) : Res (list F) :=
  n <- num_control_points ph ;; nd <- dget (ph_npts ph) d ;; lines <- idiv n nd ;;
  temp0 <- vmake (lines * (last - off + 2)) n0 ;;
  let put := fun h tmp alpha x shift => set_temp_weight ph h tmp alpha x off last d shift in
  temp1 <- temp_ends (ph_npts ph) d off last put temp0 ;;
  temp_inner (Z.to_nat (j - i)) (ph_npts ph) d scaling off put i j temp1.

(* b_spline.h:175-200 / nurbs.h:326-351 GetTempNewControlPoints *)
Definition temp_new_points (ph : phys F) (temp_w : list F) (scaling : list F) (off last i j : Z) (d : nat)
    : Res (list F) :=
  n <- num_control_points ph ;; nd <- dget (ph_npts ph) d ;; lines <- idiv n nd ;;
  temp0 <- vmake (lines * ph_dim ph * (last - off + 2)) n0 ;;
  let put := fun h tmp alpha x shift => set_temp_point ph temp_w h tmp alpha x off last d shift in
  temp1 <- temp_ends (ph_npts ph) d off last put temp0 ;;
  temp_inner (Z.to_nat (j - i)) (ph_npts ph) d scaling off put i j temp1.

(* b_spline.h:219-237: check of one line l; h gives the indices of the other directions *)
Definition line_removable (ph : phys F) (alfi : F) (temp : list F) (tolerance : F)
    (i j off : Z) (d : nat) (temp_length l : Z) (h : mih) : Res bool :=
  let dim := ph_dim ph in
  let ks := zseq 0 (Z.to_nat dim) in
  t1 <- mapM (fun k => vget temp (l * temp_length + (i - off - 1) * dim + k)) ks ;;
  t2 <- mapM (fun k => vget temp (l * temp_length + (j - off + 1) * dim + k)) ks ;;
  dist <- distance (t1 ++ [n1]) (t2 ++ [n1]) ;;
  if (tolerance <? dist)%num then
    let idx := upd (mcur h) d i in
    p <- mapM (fun k => cp <- get_control_point ph idx ;; vget cp k) ks ;;
    q <- mapM (fun k => a <- vget temp (l * temp_length + (i - off + 1) * dim + k) ;;
                        b <- vget temp (l * temp_length + (i - off - 1) * dim + k) ;;
                        Ok (alfi * a + (n1 - alfi) * b)%num) ks ;;
    dist2 <- distance (p ++ [n1]) (q ++ [n1]) ;;
    Ok (negb (tolerance <? dist2)%num)
  else Ok true.

(* nurbs.h:412-436: the same in homogeneous coordinates; [tol] is the scaled tolerance *)
Definition line_removable_w (ph : phys F) (alfi : F) (temp temp_w : list F) (tol : F)
    (i j off : Z) (d : nat) (temp_length temp_w_length l : Z) (h : mih) : Res bool :=
  let dim := ph_dim ph in
  let ks := zseq 0 (Z.to_nat dim) in
  let o := l * temp_length in
  let wo := l * temp_w_length in
  w1 <- vget temp_w (wo + i - off - 1) ;;
  w2 <- vget temp_w (wo + j - off + 1) ;;
  t1 <- mapM (fun k => x <- vget temp (o + (i - off - 1) * dim + k) ;; Ok (x * w1)%num) ks ;;
  t2 <- mapM (fun k => x <- vget temp (o + (j - off + 1) * dim + k) ;; Ok (x * w2)%num) ks ;;
  dist <- distance (t1 ++ [w1]) (t2 ++ [w2]) ;;
  if (tol <? dist)%num then
    let idx := upd (mcur h) d i in
    p <- mapM (fun k => hp <- get_homogeneous ph idx ;; vget hp k) ks ;;
    q <- mapM (fun k => a <- vget temp (o + (i - off + 1) * dim + k) ;;
                        wa <- vget temp_w (wo + i - off + 1) ;;
                        b <- vget temp (o + (i - off - 1) * dim + k) ;;
                        wb <- vget temp_w (wo + i - off - 1) ;;
                        Ok (alfi * a * wa + (n1 - alfi) * b * wb)%num) ks ;;
    pw <- get_weight ph idx ;;
    wa <- vget temp_w (wo + i - off + 1) ;;
    wb <- vget temp_w (wo + i - off - 1) ;;
    dist2 <- distance (p ++ [pw]) (q ++ [alfi * wa + (n1 - alfi) * wb])%num ;;
    Ok (negb (tol <? dist2)%num)
  else Ok true.

(* the loop over the lines with its early return: b_spline.h:219-238 *)
Fixpoint lines_removable (n : nat) (l : Z) (h : mih) (check : Z -> mih -> Res bool) : Res bool :=
  match n with
  | O => Ok true
  | S n' => b <- check l h ;;
            if (b : bool) then lines_removable n' (l + 1) (mih_incr h) check else Ok false
  end.

(* b_spline.h:212-239 IsKnotRemovable; nurbs.h:400-438 when weights are present *)
Definition is_knot_removable (ph : phys F) (alfi : F) (temp temp_w : list F) (tolerance : F)
    (i j off : Z) (d : nat) : Res bool :=
  lens <- npts_at ph d (fun _ => 0) ;;
  n <- num_control_points ph ;; nd <- dget (ph_npts ph) d ;; lines <- idiv n nd ;;
  tl <- idiv (zlen temp) lines ;;
  match ph_wts ph with
  | None =>
      lines_removable (Z.to_nat lines) 0 (mih_new lens)
        (line_removable ph alfi temp tolerance i j off d tl)
  | Some _ =>
      maxdist <- max_distance ph ;; minw <- min_weight ph ;;
      let tol := (tolerance * minw / (n1 + maxdist))%num in
      twl <- idiv (zlen temp_w) lines ;;
      lines_removable (Z.to_nat lines) 0 (mih_new lens)
        (line_removable_w ph alfi temp temp_w tol i j off d tl twl)
  end.

(* b_spline.h:153-173 and nurbs.h:284-304 SetNewControlPoints *)
Definition set_new_points (ph : phys F) (temp : list F) (last ii off : Z) (d : nat) : Res (phys F) :=
  nd <- dget (ph_npts ph) d ;;
  let lens := upd (ph_npts ph) d (nd - 1) in
  mih_loop (ph_npts ph) (fun h p =>
    k <- dget (mcur h) d ;;
    p1 <- (if (k - off >=? 1) && negb (k - off =? ii) && (k <? last + 2) then
             cs <- sublist temp ((extract_dimension h d * (last - off + 2) + k - off) * ph_dim p) (ph_dim p) ;;
             set_control_point p lens (upd (mcur h) d (if k - off <? ii then k else k - 1)) cs
           else Ok p) ;;
    (if ((k <=? off) && (k - off <? 1)) || ((k >=? last + 1) && (k <? nd)) then
       cp <- get_control_point p1 (mcur h) ;;
       set_control_point p1 lens (upd (mcur h) d (if k <=? off then k else k - 1)) cp
     else Ok p1)) ph.

(* nurbs.h:306-324 SetNewWeights *)
Definition set_new_weights (ph : phys F) (temp_w : list F) (last ii off : Z) (d : nat) : Res (phys F) :=
  nd <- dget (ph_npts ph) d ;;
  let lens := upd (ph_npts ph) d (nd - 1) in
  mih_loop (ph_npts ph) (fun h p =>
    k <- dget (mcur h) d ;;
    p1 <- (if (k - off >=? 1) && negb (k - off =? ii) && (k <? last + 2) then
             w <- vget temp_w (extract_dimension h d * (last - off + 2) + k - off) ;;
             set_weight p lens (upd (mcur h) d (if k - off <? ii then k else k - 1)) w
           else Ok p) ;;
    (if ((k <=? off) && (k - off <? 1)) || ((k >=? last + 1) && (k <? nd)) then
       w <- get_weight p1 (mcur h) ;;
       set_weight p1 lens (upd (mcur h) d (if k <=? off then k else k - 1)) w
     else Ok p1)) ph.

(* b_spline.h:79-91 and nurbs.h:91-105 RemoveControlPoints: None = returned false.
   ceil((j - i) / 2.0) is (j - i + 1) div 2. *)
Definition remove_points (ph : phys F) (scaling : list F) (first last : Z) (d : nat) (tolerance : F)
    : Res (option (phys F)) :=
  let off := first - 1 in
  temp_w <- match ph_wts ph with
            | None => Ok []
            | Some _ => temp_new_weights ph scaling off last first last d
            end ;;
  temp <- temp_new_points ph temp_w scaling off last first last d ;;
  let diff := (last - first + 1) / 2 in
  let i := first + diff in
  let j := last - diff in
  alfi <- vget scaling (i - off - 1) ;;
  ok <- is_knot_removable ph alfi temp temp_w tolerance i j off d ;;
  if (ok : bool) then
    ph1 <- set_new_points ph temp last (i - off) off d ;;
    ph2 <- match ph_wts ph with
           | None => Ok ph1
           | Some _ => set_new_weights ph1 temp_w last (i - off) off d
           end ;;
    n <- num_control_points ph2 ;; nd <- dget (ph_npts ph2) d ;; lines <- idiv n nd ;;
    ph3 <- remove_control_points ph2 lines ;;
    Ok (Some (set_npts ph3 (upd (ph_npts ph3) d (nd - 1))))
  else Ok None.

(* spline.h:197-201: scaling loop of RemoveKnot *)
Fixpoint remove_scaling (fuel : nat) (kv : list F) u (deg j last : Z) : Res (list F) :=
  if j <=? last then
    match fuel with
    | O => UB
    | S f =>
        lo <- get_knot kv j ;; up <- get_knot kv (u64 (j + deg + 1)) ;;
        rest <- remove_scaling f kv u deg (u64 (j + 1)) last ;;
        Ok (((u - lo) / (up - lo))%num :: rest)
    end
  else Ok [].

(* spline.h:192-204: one pass of the loop of RemoveKnot; None = not removable *)
Definition remove_knot_once s u (d : nat) (tolerance : F) : Res (option (spline F)) :=
  kv <- sp_knots s d ;;
  k <- knot_span kv u ;;
  deg <- sp_deg s d ;;
  let last := u64 (k - multiplicity kv u) in
  let first := k - deg in
  scaling <- remove_scaling (S (length kv)) kv u deg (u64 first) last ;;
  r <- remove_points (sp_ph s) scaling first (i32 last) d tolerance ;;
  match r with
  | None => Ok None
  | Some ph => ps <- ps_remove (sp_ps s) u d ;; Ok (Some (mkSpline ps ph))
  end.

(* spline.h:189-207 RemoveKnot: the number of removals and the resulting spline *)
Fixpoint remove_knot_loop (n : nat) s u (d : nat) (tolerance : F) : Res (Z * spline F) :=
  match n with
  | O => Ok (0, s)
  | S n' =>
      r <- remove_knot_once s u d tolerance ;;
      match r with
      | None => Ok (0, s)
      | Some s' => cs <- remove_knot_loop n' s' u d tolerance ;; Ok (1 + fst cs, snd cs)
      end
  end.
Definition remove_knot s u (d : nat) (tolerance : F) (mult : Z) : Res (Z * spline F) :=
  remove_knot_loop (Z.to_nat mult) s u d tolerance.

(* ------------------------------------------------------------------ *)
(* b_spline.h:103-110 / nurbs.h:119-126: one of the two pieces *)
Definition make_piece s (knots : list (list F)) (first : Z) (d : nat) : Res (Z * spline F) :=
  kvd <- dget knots d ;; deg <- sp_deg s d ;;
  let len := zlen kvd - deg - 1 in
  pts <- divided_control_points (sp_ph s) first len d ;;
  wts <- match ph_wts (sp_ph s) with
         | None => Ok None
         | Some _ => w <- divided_weights (sp_ph s) first len d ;; Ok (Some w)
         end ;;
  piece <- spline_new knots (ps_degs (sp_ps s)) pts wts ;;
  piece' <- spline_copy piece ;;
  Ok (len, piece').

(* b_spline.h:93-111 and nurbs.h:107-128 SudivideSpline: the two pieces and the receiver, which
   keeps the inserted knots *)
Definition subdivide s u (d : nat) : Res (spline F * spline F * spline F) :=
  deg <- sp_deg s d ;; kv <- sp_knots s d ;;
  s1 <- insert_knot s u d (u64 (deg + 1 - multiplicity kv u)) ;;
  ks <- divided_knot_vectors (sp_ps s1) u d ;;
  p1 <- make_piece s1 (fst ks) 0 d ;;
  p2 <- make_piece s1 (snd ks) (fst p1) d ;;
  Ok (snd p1, snd p2, s1).

End SplineEdit.
