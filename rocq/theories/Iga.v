(* Model of the isogeometric-analysis helpers in example/iga/src: element_generator.h,
   connectivity_handler.h, basis_function_handler.h and mapping_handler.h:40-49 (and of
   src/util/element_generator.h, whose constructor is the same). *)
From Coq Require Import ZArith List Bool.
From Verif Require Import Base MultiIndex KnotVec Basis Spaces SplineEval.
Import ListNotations.
Open Scope Z_scope.

Section Iga.
Context {F : NumOps}.

(* element_generator.h:29-38 constructor, one direction; src/util/element_generator.h:28-37 is the
   same.  An Element (element.h) is the pair of its two bounds.  The uint64_t bound of the loop
   wraps around for fewer than p+1 knots; the loop then reads past the end of the knots. *)
Definition elements (kv : list F) (p : Z) : Res (list (F * F)) :=
  if zlen kv - p - 1 <? 0 then UB
  else foldM (fun acc j => a <- get_knot kv j ;; b <- get_knot kv (j + 1) ;;
                           Ok (if (a - b =? n0)%num then acc else acc ++ [(a, b)]))
             (zseq 0 (Z.to_nat (zlen kv - p - 1))) [].

Definition element_lists (s : spline F) : Res (list (list (F * F))) :=
  mapM (fun x => elements (fst x) (snd x)) (combine (ps_knots (sp_ps s)) (ps_degs (sp_ps s))).

(* element_generator.h:44-50 GetNumElementsPerParamDir *)
Definition num_elements (s : spline F) : Res (list Z) :=
  l <- element_lists s ;; Ok (map zlen l).

(* element_generator.h:52-58 GetNumberOfElements *)
Definition num_all_elements (s : spline F) : Res Z :=
  l <- num_elements s ;; Ok (fold_left Z.mul l 1).

(* element_generator.h:96-105 GetInternalKnots, one direction: knots[p .. size - p) *)
Definition internal_knots (kv : list F) (p : Z) : Res (list F) := sublist kv p (zlen kv - 2 * p).

(* element_generator.h:107-113 GetUniqueKnots, one direction *)
Definition unique_knots (kv : list F) (p : Z) : Res (list F) :=
  l <- internal_knots kv p ;; Ok (unique_copy l).

(* element_generator.h:66-68: v.erase(std::find(v.rbegin(), v.rend(), x).base(), v.rbegin().base())
   erases everything behind the last element equal to x (everything if there is none) *)
Fixpoint keep_to_last (x : F) (l : list F) : list F :=
  match l with
  | [] => []
  | y :: t => match keep_to_last x t with
              | [] => if (y =? x)%num then [y] else []
              | k => y :: k
              end
  end.

(* element_generator.h:83-87 GetElementIndices *)
Definition element_indices (s : spline F) (n : Z) : Res (list Z) :=
  ne <- num_elements s ;; Ok (mcur (mih_plus (mih_new ne) n)).

(* element_generator.h:89-93 Get1DElementIndex *)
Definition element_number (s : spline F) (es : list Z) : Res Z :=
  ne <- num_elements s ;; Ok (mih_get1d (mih_set_indices (mih_new ne) es)).

(* element_generator.h:64-70: body of GetKnotMultiplicityIndexShift for one direction *)
Definition index_shift (kv : list F) (p e : Z) : Res Z :=
  internal <- internal_knots kv p ;; unique <- unique_knots kv p ;;
  lower <- vget unique e ;;
  Ok (zlen (keep_to_last lower internal) - zlen (keep_to_last lower unique)).

(* element_generator.h:60-72 GetKnotMultiplicityIndexShift *)
Definition index_shifts (s : spline F) (n : Z) : Res (list Z) :=
  es <- element_indices s n ;;
  mapM (fun x => index_shift (fst x) (fst (snd x)) (snd (snd x)))
       (combine (ps_knots (sp_ps s)) (combine (ps_degs (sp_ps s)) es)).

(* element_generator.h:74-81 GetElementNumberAtParamCoord *)
Definition element_at (s : spline F) (us : list F) : Res Z :=
  es <- mapM (fun x => kv <- unique_knots (fst x) (fst (snd x)) ;; knot_span kv (snd (snd x)))
             (combine (ps_knots (sp_ps s)) (combine (ps_degs (sp_ps s)) us)) ;;
  element_number s es.

(* connectivity_handler.h:37-52 GetGlobalIndicesPerParametricDirection *)
Definition global_indices (s : spline F) (n l : Z) : Res (list Z) :=
  ne <- num_elements s ;;
  let elm := mcur (mih_plus (mih_new ne) n) in
  let baf := mcur (mih_plus (mih_new (map (fun p => p + 1) (ps_degs (sp_ps s)))) l) in
  shift <- index_shifts s n ;;
  Ok (map2 Z.add (map2 Z.add baf elm) shift).

(* connectivity_handler.h:32-34 and 54-58 GetGlobalIndex, Get1DGlobalIndex *)
Definition global_index (s : spline F) (n l : Z) : Res Z :=
  g <- global_indices s n l ;;
  Ok (mih_get1d (mih_set_indices (mih_new (ph_npts (sp_ph s))) g) + 1).

(* basis_function_handler.h:216-220 GetWeight: the array {k} is {k, 0, ..., 0} *)
Definition local_weight (s : spline F) (us : list F) (l : Z) : Res F :=
  n <- element_at s us ;; g <- global_index s n l ;;
  get_weight (sp_ph s) ((g - 1) :: repeat 0 (pred (length (ps_degs (sp_ps s))))).

(* basis_function_handler.h:126-150 EvaluateAllNonZeroNURBSBasisFunctions.  The loop
   while (true) { ...; if (last) break; ++mih; } makes Get1DLength() iterations (all lengths are
   p+1 >= 1). *)
Definition nonzero_nurbs (s : spline F) (us : list F) : Res (list F) :=
  bs <- mapM (fun x => eval_all_nonzero (sp_ps s) (fst x) (snd x)) (combine (seq 0 (length us)) us) ;;
  r <- mih_loop (map zlen bs) (fun h st =>
         temp <- foldM (fun t x => b <- vget (fst x) (snd x) ;; Ok (t * b)%num) (combine bs (mcur h)) n1 ;;
         w <- local_weight s us (mih_get1d h) ;;
         Ok (fst st ++ [(temp * w)%num], (snd st + temp * w)%num)) ([], n0) ;;
  Ok (map (fun v => v / snd r)%num (fst r)).

(* basis_function_handler.h:173-179: the i-th entry of temp_ders *)
Definition temp_deriv (bs ds : list (list F)) (cur : list Z) (i : nat) : Res F :=
  foldM (fun t j => f <- dget (if Nat.eqb i j then ds else bs) j ;; c <- dget cur j ;;
                    b <- vget f c ;; Ok (t * b)%num) (seq 0 (length bs)) n1.

(* basis_function_handler.h:152-197 EvaluateAllNonZeroNURBSBasisFunctionDerivatives; the state of
   the first loop is (nurbs_basis_functions, sum_baf, nurbs_basis_function_derivatives,
   sum_baf_ders); pow(x, 2) is x * x. *)
Definition deriv_state : Type := list F * F * list (list F) * list F.
Definition deriv_loop (s : spline F) (us : list F) (bs ds : list (list F)) : Res deriv_state :=
  let dims := seq 0 (length us) in
  mih_loop (map zlen bs) (fun h st =>
    let '(vals, sum, dvals, dsums) := st in
    temp <- foldM (fun t x => b <- vget (fst x) (snd x) ;; Ok (t * b)%num) (combine bs (mcur h)) n1 ;;
    tds <- mapM (temp_deriv bs ds (mcur h)) dims ;;
    w <- local_weight s us (mih_get1d h) ;;
    Ok (vals ++ [(temp * w)%num], (sum + temp * w)%num,
        map2 (fun l t => l ++ [(t * w)%num]) dvals tds, map2 (fun a t => a + t * w)%num dsums tds))
    ([], n0, repeat [] (length us), repeat n0 (length us)).
(* 189-195: the loop runs over basis_functions.size(), which is DIM *)
Definition deriv_quotients (st : deriv_state) : Res (list (list F)) :=
  let '(vals, sum, dvals, dsums) := st in
  r <- foldM (fun acc i =>
         v <- vget (fst acc) i ;; let v' := (v / sum)%num in
         vals' <- vset (fst acc) i v' ;;
         dvals' <- mapM (fun x => d <- vget (fst x) i ;;
                                  vset (fst x) i ((d * sum - v' * snd x) / (sum * sum))%num)
                        (combine (snd acc) dsums) ;;
         Ok (vals', dvals')) (zseq 0 (length dsums)) (vals, dvals) ;;
  Ok (snd r).
Definition nonzero_nurbs_derivs (s : spline F) (us : list F) : Res (list (list F)) :=
  let dims := combine (seq 0 (length us)) us in
  bs <- mapM (fun x => eval_all_nonzero (sp_ps s) (fst x) (snd x)) dims ;;
  ds <- mapM (fun x => eval_all_nonzero_derivs (sp_ps s) (fst x) (snd x) 1) dims ;;
  st <- deriv_loop s us bs ds ;;
  deriv_quotients st.

(* mapping_handler.h:40-49 Reference2ParameterSpace *)
Definition reference_to_parameter (s : spline F) (n : Z) (xs : list F) : Res (list F) :=
  ls <- element_lists s ;; es <- element_indices s n ;;
  mapM (fun x => e <- vget (fst x) (fst (snd x)) ;;
                 Ok (((snd e - fst e) * snd (snd x) + (snd e + fst e)) / nofZ 2)%num)
       (combine ls (combine es xs)).

End Iga.
