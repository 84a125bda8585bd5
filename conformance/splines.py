from lib import *
out=['''(* The unit tests of knot insertion, removal, subdivision, degree elevation and reduction, and projection,
   run on the model with double arithmetic.  Tests on random splines are left out. *)
From Coq Require Import ZArith List Floats Bool.
From Verif Require Import Base MultiIndex KnotVec Basis VecUtils Spaces SplineEval SplineEdit SplineDegree Projection
  ConformanceBase.
Import ListNotations.
Open Scope Z_scope.
''']
def fx(f,c,n): out.append(fixture(f,c,n))
def ex(f,c,t,n,code):
    txt,a,b=test(f,c,t)
    P=cps(txt); W=re.search(r'new_weights = \{([^}]*)\}',txt)
    code=code.replace('@PTS','['+';\n     '.join(fl(p) for p in P)+']%float')
    if W: code=code.replace('@WTS',fl([evalnum(x) for x in W.group(1).split(',')])+'%float')
    code=re.sub(r'#([-0-9.e]+)',lambda m:hx(m.group(1))+'%float',code)
    out.append('(* %s:%d-%d %s *)\nExample %s :\n  (%s)%%bool = true.\nProof. vm_compute. reflexivity. Qed.\n'%(f,a,b,t,n,code))
f='test/spl/knot_insertion_test.cc'
fx(f,'BSpline1DEx5_1','ins51'); fx(f,'NURBS1DEx5_2','ins52'); fx(f,'BSpline1DFig5_16','ins516')
ex(f,'BSpline1DEx5_1','InsertsKnot2_5Correctly','inserts_2_5','''passes (s <- ins51 ;; t <- insert_knot s #2.5 0 1 ;; Ok (s, t)) (fun st => let (s, t) := st in
   (num_knots t 0 =? num_knots s 0 + 1) && double_eq (knot_of t 0 6) #2.5 && (num_points t =? num_points s + 1)
   && points_are t @PTS
   && same_values double_eq t s (map (fun u => [u]) (sweep 50 #10)) [0])''')
ex(f,'NURBS1DEx5_2','InsertsKnot2_0Correctly','inserts_2_0','''passes (s <- ins52 ;; t <- insert_knot s #2 0 1 ;; Ok (s, t)) (fun st => let (s, t) := st in
   (num_knots t 0 =? num_knots s 0 + 1) && double_eq (knot_of t 0 6) #2 && (num_points t =? num_points s + 1)
   && passes (curve_points t) (fun m => points_eq (skipn 3 m) (skipn 3 @PTS))
   && weights_are t @WTS
   && same_values double_eq t s (map (fun u => [u]) (sweep 50 #10)) [0])''')
ex(f,'BSpline1DFig5_16','InsertsMidpoints','inserts_midpoints','''passes (s <- ins516 ;; t <- refine_knots s [#0.15; #0.5; #0.85] 0 ;; Ok (s, t)) (fun st => let (s, t) := st in
   (num_knots t 0 =? num_knots s 0 + 3)
   && all2 double_eq (firstn 5 (skipn 4 (knots_of t 0))) [#0.15; #0.3; #0.5; #0.7; #0.85]
   && (num_points t =? num_points s + 3)
   && passes (curve_points t) (fun m => all2 (all2 (double_near #0.00001)) m @PTS)
   && same_values (double_near #0.00001) t s (map (fun u => [u]) (sweep 100 #100)) [0])''')
for t,n,call,k,kn in [('InsertsKnot0_5MultipleTimesWithKnotRefinement','refines_0_5_three_times','refine_knots s [#0.5; #0.5; #0.5] 0',3,'[#0.3; #0.5; #0.5; #0.5; #0.7]'),
  ('InsertsKnot0_5MultipleTimes','inserts_0_5_three_times','insert_knot s #0.5 0 3',3,'[#0.3; #0.5; #0.5; #0.5; #0.7]'),
  ('InsertsKnot0_3MultipleTimes','inserts_0_3_twice','insert_knot s #0.3 0 2',2,'[#0.3; #0.3; #0.3; #0.7]')]:
  ex(f,'BSpline1DFig5_16',t,n,'''passes (s <- ins516 ;; t <- %s ;; Ok (s, t)) (fun st => let (s, t) := st in
   (num_knots t 0 =? num_knots s 0 + %d)
   && all2 double_eq (firstn %d (skipn 4 (knots_of t 0))) %s
   && (num_points t =? num_points s + %d)
   && same_values (double_near #0.00001) t s (map (fun u => [u]) (sweep 100 #100)) [0])'''%(call,k,kn.count('#'),kn,k))
f='test/spl/knot_removal_test.cc'
fx(f,'BSpline1DFig5_26','rem1'); fx(f,'NURBS1DFig5_26','rem1r'); fx(f,'BSpline2DFig5_28','rem2'); fx(f,'NURBS2DFig5_28','rem2r'); fx(f,'A3DBSplineForKnotRemoval','rem3'); fx(f,'A3DNURBSForKnotRemoval','rem3r')
def rem(cls,fxn,t,n,u,d,tol,m,ret,kn,kv,np,extra):
  ex(f,cls,t,n,'''passes (s <- %s ;; r <- remove_knot s #%s %d #%s %d ;; Ok (s, r)) (fun sr => let s := fst sr in let t := snd (snd sr) in
   (fst (snd sr) =? %d) && (num_knots t %d =? num_knots s %d - %d) && double_eq (knot_of t %d %d) #%s
   && (num_points t =? num_points s - %d)%s)'''%(fxn,u,d,tol,m,ret,d,d,ret,d,kn,kv,np,extra))
P='\n   && points_are t @PTS'
rem('BSpline1DFig5_26','rem1','RemovesKnot1_0CorrectlyOneTime','removes_one','1',0,'0.1',1,1,6,'2',1,P+'\n   && geometric s t epsilon true')
rem('BSpline1DFig5_26','rem1','RemovesKnot1_0CorrectlyTwoTimes','removes_two','1',0,'0.0',2,2,5,'2',2,P+'\n   && geometric s t epsilon true')
rem('BSpline1DFig5_26','rem1','RemovesKnot1_0CorrectlyThreeTimesAtOnce','removes_three','1',0,'0.5',3,3,4,'2',3,P+'\n   && geometric s t #0.2 false && geometric s t #0.3 true')
ex(f,'BSpline1DFig5_26','RemovesOnlyTwoKnots1_0CorrectlyWithTolerance0_1','removes_only_two','passes (s <- rem1 ;; remove_knot s #1 0 #0.1 3) (fun r => fst r =? 2)')
rem('NURBS1DFig5_26','rem1r','RemovesKnot1_0CorrectlyOneTime','rational_removes_one','1',0,'0.81',1,1,6,'2',1,P+'\n   && weights_are t @WTS\n   && geometric s t #0.1 false && geometric s t #0.13 true')
ex(f,'NURBS1DFig5_26','RemovesOnlyOneKnot1_0CorrectlyWithTolerance0_81','rational_removes_only_one','passes (s <- rem1r ;; remove_knot s #1 0 #0.81 2) (fun r => fst r =? 1)')
rem('BSpline2DFig5_28','rem2','RemovesKnot0_3CorrectlyOneTime','surface_removes_one','0.3',1,'0.075',1,1,6,'0.7',6,'\n   && geometric s t epsilon false && geometric s t #0.075 true')
rem('BSpline2DFig5_28','rem2','RemovesKnot0_3CorrectlyTwoTimes','surface_removes_two','0.3',1,'0.12',2,2,5,'0.7',12,'\n   && geometric s t epsilon false && geometric s t #0.1 true')
rem('NURBS2DFig5_28','rem2r','RemovesKnot0_3CorrectlyOneTime','rational_surface_removes_one','0.3',1,'2.2',1,1,6,'0.7',6,'\n   && geometric s t epsilon false && geometric s t #0.08 true')
rem('NURBS2DFig5_28','rem2r','RemovesKnot0_3CorrectlyTwoTimes','rational_surface_removes_two','0.3',1,'2.2',2,2,5,'0.7',12,'\n   && geometric s t epsilon false && geometric s t #0.07 true')
rem('A3DBSplineForKnotRemoval','rem3','RemovesKnot0_3CorrectlyOneTime','volume_removes_one','0.3',2,'0.21',1,1,5,'1',6,'\n   && geometric s t #0.1 false && geometric s t #0.2 true')
rem('A3DBSplineForKnotRemoval','rem3','RemovesKnot0_3CorrectlyTwoTimes','volume_removes_two','0.3',2,'0.28',2,2,4,'1',12,'\n   && geometric s t #0.1 false && geometric s t #0.2 true')
rem('A3DNURBSForKnotRemoval','rem3r','RemovesKnot0_3CorrectlyOneTime','rational_volume_removes_one','0.3',2,'3.86',1,1,5,'1',6,'\n   && geometric s t #0.1 false && geometric s t #0.2 true')
rem('A3DNURBSForKnotRemoval','rem3r','RemovesKnot0_3CorrectlyTwoTimes','rational_volume_removes_two','0.3',2,'5.3',2,2,4,'1',12,'\n   && geometric s t #0.1 false && geometric s t #0.22 true')
f='test/spl/spline_subdivision_test.cc'
fx(f,'BSplineFig5_9','sub59')
ex(f,'BSplineFig5_9','IsSubdividedAtKnot0_7InFirstDirection','subdivides_0_7','''passes (s <- sub59 ;; r <- subdivide s #0.7 0 ;; Ok (s, r)) (fun sr => let s := fst sr in
   let a := fst (fst (snd sr)) in let b := snd (fst (snd sr)) in
   all2 double_eq (knots_of a 0) [#0; #0; #0; #0; #0.7; #0.7; #0.7; #0.7]
   && all2 double_eq (knots_of b 0) [#0.7; #0.7; #0.7; #0.7; #1; #1; #1; #1]
   && forallb (fun u => forallb (fun v =>
        same_values (double_near #0.000001) (if PrimFloat.leb #0.7 u then b else a) s [[u; v]] [0; 1]) (sweep 8 #8))
      (sweep 100 #100))''')
f='test/spl/degree_elevation_test.cc'
C1,C2,C3='BSplineFig5_35ForDegreeElevationForDimension0','ALinearNURBSForDegreeElevationForDimension0','A2DBSplineForDegreeElevationForDimension0'
fx(f,C1,'el1'); fx(f,C2,'el1r'); fx(f,C3,'el2')
for c,n in ((C1,'el1'),(C2,'el1r'),(C3,'el2')):
  two='' if n!='el2' else '\n   && (degree_of t 1 =? degree_of s 1) && (num_knots t 1 =? num_knots s 1) && (per_direction t 1 =? per_direction s 1)'
  ex(f,c,'DoesNotChangeGeometricallyAfterDegreeElevation',n+'_elevated','''passes (s <- %s ;; t <- elevate_degree s 0 ;; Ok (s, t)) (fun st => let (s, t) := st in
   (degree_of t 0 =? degree_of s 0 + 1) && (num_different (F := Fops) (knots_of t 0) =? num_different (F := Fops) (knots_of s 0))
   && (num_knots t 0 =? num_knots s 0 + num_different (F := Fops) (knots_of s 0))
   && (per_direction t 0 =? per_direction s 0 + num_different (F := Fops) (knots_of s 0) - 1)%s
   && geometric t s epsilon true)'''%(n,two))
ex(f,C3,'DoesNotChangeGeometricallyAfterMoreDegreeElevations','el2_elevated_more','''passes (s <- el2 ;; t <- elevate_degree s 0 ;; t1 <- elevate_degree t 1 ;; t2 <- elevate_degree t1 0 ;; t3 <- elevate_degree t2 1 ;;
           Ok (s, t1, t2, t3)) (fun q => let '(s, t1, t2, t3) := q in
   geometric t1 s epsilon true && geometric t2 s epsilon true && geometric t3 s #1e-10 true)''')
f='test/spl/degree_reduction_test.cc'
C1='BSplineFig5_35ForDegreeElevationAndReductionForDimension0';C2='ALinearNURBSForDegreeElevationAndReductionForDimension0';C3='A2DBSplineForDegreeElevationAndReductionForDimension0'
fx(f,C1,'rd1'); fx(f,C2,'rd1r'); fx(f,C3,'rd2')
ex(f,C1,'DegreeReductionWithoutPreviousDegreeElevationFails','rd1_fails','''passes (s <- rd1 ;; r <- reduce_degree s 0 epsilon ;; Ok (s, r)) (fun sr => let s := fst sr in let (ok, t) := snd sr : bool * spline Fops in
   negb ok && (degree_of t 0 =? degree_of s 0))''')
for c,n,t in ((C1,'rd1','DoesNotChangeGeometricallyAfterDegreeElevationAndReduction'),(C2,'rd1r','DoesNotChangeGeometricallyAfterDegreeElevationAndReduction'),(C3,'rd2','DoesNotChangeGeometricallyAfterDegreeElevationAndRedution')):
  two='' if n!='rd2' else '\n   && (degree_of t 1 =? degree_of s 1) && (num_knots t 1 =? num_knots s 1) && (per_direction t 1 =? per_direction s 1)'
  ex(f,c,t,n+'_reduced','''passes (s <- %s ;; e <- elevate_degree s 0 ;; r <- reduce_degree e 0 epsilon ;; Ok (s, r)) (fun sr =>
   let s := fst sr in let (ok, t) := snd sr : bool * spline Fops in
   ok && (degree_of t 0 =? degree_of s 0) && (num_different (F := Fops) (knots_of t 0) =? num_different (F := Fops) (knots_of s 0))
   && (num_knots t 0 =? num_knots s 0) && (per_direction t 0 =? per_direction s 0)%s
   && geometric t s epsilon true)'''%(n,two))
ex(f,C3,'DoesNotChangeGeometricallyAfterMoreDegreeElevationsAndReductions','rd2_reduced_more','''passes (s <- rd2 ;; e <- elevate_degree s 0 ;; r <- reduce_degree e 0 epsilon ;; e1 <- elevate_degree (snd r) 1 ;; e2 <- elevate_degree e1 0 ;;
           e3 <- elevate_degree e2 1 ;; r1 <- reduce_degree e3 0 epsilon ;; r2 <- reduce_degree (snd r1) 1 epsilon ;;
           r3 <- reduce_degree (snd r2) 1 epsilon ;; Ok (s, r1, r2, r3)) (fun q => let '(s, r1, r2, r3) := q in
   fst r1 && fst r2 && fst r3 && geometric (snd r3) s epsilon true)''')
f='test/spl/projection_curve_test.cc'
fx(f,'ABSpline2','pc')
for t,n,pt,chk in (('ComputesCorrectProjectionCloseToCenter','curve_center','332; 200','double_near #0.0001 x #0.6223419238'),
 ('ComputesCorrectProjectionRightOfLastKnot','curve_right','800; 200','double_eq x #1'),('ComputesCorrectProjectionLeftOfFirstKnot','curve_left','0; 0','double_eq x #0')):
  ex(f,'ABSpline2',t,n,'passes (s <- pc ;; project_curve (F := Fops) (S (Z.to_nat 1000)) [%s]%%float s #0.0001) (fun r => match r with Some [x] => %s | _ => false end)'%(pt,chk))
f='test/spl/projection_surface_test.cc'
fx(f,'ABSplineSurface','psf')
for t,n,pt,sc,x,y in (('ComputesCorrectProjectionCloseToCenter','surface_center','120; 10; 100','(100, 100)','double_near #0.00001 x #0.55852','double_near #0.00001 y #0.8614466'),
 ('ComputesCorrectProjectionBelowBothFirstKnots','surface_below','-250; -200; -20','(10, 10)','double_eq x #0','double_eq y #0'),
 ('ComputesCorrectProjectionAboveBothLastKnots','surface_above','250; 110; -20','(10, 10)','double_eq x #1','double_eq y #1'),
 ('ComputesCorrectProjectionBelowFirstKnotOfFirstVectorAndAboveLastKnotOfSecondVector','surface_below_above','220; -220; -40','(10, 10)','double_eq x #0','double_eq y #1'),
 ('ComputesCorrectProjectionAboveLastKnotOfFirstVectorAndBelowFirstKnotOfSecondVector','surface_above_below','-260; 80; -30','(10, 10)','double_eq x #1','double_eq y #0')):
  pt='; '.join('(%s)'%p if '-' in p else p for p in pt.split('; '))
  ex(f,'ABSplineSurface',t,n,'passes (s <- psf ;; project_surface (F := Fops) (S (Z.to_nat 1000)) [%s]%%float s %s #0.00001)\n   (fun r => match r with Some [x; y] => %s && %s | _ => false end)'%(pt,sc,x,y))
write('ConformanceSplines.v','\n'.join(out))
