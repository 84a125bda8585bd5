from lib import *
out=["""(* test/spl/square_generator_test.cc, surface_generator_test.cc (ASurface) and nurbs_test.cc (NurbsEx4_1, ANurbs),
   run on the model with double arithmetic; mocked spaces are replaced by the splines their comments describe. *)
From Coq Require Import ZArith List Floats Bool.
From Verif Require Import Base MultiIndex KnotVec Basis Spaces SplineEval Generators Swept ConformanceBase.
Import ListNotations.
Open Scope Z_scope.
"""]
def ex(where,name,code): out.append('(* %s *)\nExample %s : (%s)%%bool = true.\nProof. vm_compute. reflexivity. Qed.\n'%(where,name,code))
s=src('test/spl/square_generator_test.cc')
ctor={}
for m in re.finditer(r'  (ASquare\w*)\(\) \{\s*spl::SquareGenerator \w+ = spl::SquareGenerator\((.*?)\);',s):
    a=re.findall(r'\d+',m.group(2)); ctor[m.group(1)]=tuple(map(int,a)) if a else (2,6)
n=0
for m in re.finditer(r'TEST_F\((\w+), (\w+)\) \{(.*?)\n\}',s,re.S):
    p,k=ctor[m.group(1)]; line=s[:m.start()].count('\n')+1
    for a in re.finditer(r'Evaluate\(\{ParamCoord\{([^}]*)\}, ParamCoord\{([^}]*)\}\}, \{(\d)\}\)\[0\],\s*(DoubleEq|DoubleNear)\(([-0-9.]+)',m.group(3)):
        n+=1
        t='double_eq x %s' if a.group(4)=='DoubleEq' else 'double_near epsilon x %s'
        ex('test/spl/square_generator_test.cc:%d %s %s'%(line,m.group(1),m.group(2)),'square_%d'%n,
          'passes (q <- create_square (F := Fops) %d %d ;; evaluate q [%s; %s]%%float [%s]) (fun v => match v with [x] => %s | _ => false end)'%(p,k,hx(a.group(1)),hx(a.group(2)),a.group(3),t%(hx(a.group(5))+'%float')))
    for a in re.finditer(r'GetNumberOfKnots\(\), (\d+)',m.group(3)):
        n+=1
        ex('same file:%d'%line,'square_%d'%n,'passes (create_square (F := Fops) %d %d) (fun q => (num_knots q 0 =? %s) && (num_knots q 1 =? %s))'%(p,k,a.group(1),a.group(1)))
s=src('test/spl/surface_generator_test.cc')
f=lambda l:fl(l)+'%float'
sec=[[0,1,0],[0,1,1],[0,0,1],[0,-1,1],[0,-1,0],[0,-1,-1],[0,0,-1],[0,1,-1],[0,1,0]]
out.append('Definition trajectory := spline_new (F := Fops) [[0; 0; 1; 1]]%%float [1] [[0; 0; 0]; [10; 0; 0]]%%float (Some [1; 1]%%float).\nDefinition section := spline_new (F := Fops) [%s] [2] [%s] (Some %s).\n'%(f([0,0,0,.25,.25,.5,.5,.75,.75,1,1,1]),'; '.join(f(x) for x in sec),f([1,.7071]*4+[1])))
out.append('Definition joined := t <- trajectory ;; c <- section ;; translational_surface t c.\nDefinition ones : list (float * float * float) := repeat (1, 1, 1)%float 3.\nDefinition halves : list (float * float * float) := repeat (0.5, 0.5, 0.5)%float 5.\nDefinition scaled := t <- trajectory ;; c <- section ;; swept_surface (F := Fops) t c 11 (ones ++ halves ++ ones).\nDefinition compared := t <- trajectory ;; c <- section ;; swept_surface (F := Fops) t c 2 (firstn 2 ones).\n')
out.append('''Definition trajectory_c := spline_new (F := Fops) [[0; 0; 0; 0; 0.25; 0.5; 0.75; 1; 1; 1; 1]]%%float [3]
  [[2; 0; 1]; [1; 0; 1]; [1; 0; 0]; [1; 1; 0]; [0; 1; 0]; [0; 1; 2]; [1; 1; 2]]%%float (Some [1; 0.5; 0.5; 0.5; 0.5; 0.5; 1]%%float).
Definition section_c := spline_new (F := Fops) [%s] [2] [%s] (Some %s).
Definition complex := t <- trajectory_c ;; c <- section_c ;; swept_surface (F := Fops) t c 101 (repeat (1, 1, 1)%%float 101).
Definition factor (i : Z) : float :=
  if (50 <=? i) && (i <? 90) then (1 - %s * float_of_Z (if (i <? 70)%%Z then (i - 50)%%Z else (90 - i)%%Z))%%float else 1%%float.
Definition complex_scaled := t <- trajectory_c ;; c <- section_c ;;
  swept_surface (F := Fops) t c 101 (map (fun i => (factor i, factor i, factor i)) (zseq 0 101)).
'''%(f([0,0,0,.25,.25,.5,.5,.75,.75,1,1,1]),'; '.join(f([0,.15*x[1],.1*x[2]]) for x in sec),f([1,.7071]*4+[1]),hx(.04)))
which={'nurbsJoined':'joined','nurbsJoinedScaled':'scaled','nurbsJoinedScaledCmp':'compared'}
k=0
for m in re.finditer(r'ASSERT_THAT\((nurbsJoined\w*)->(\w+)\((.*?)\)(->GetNumberOfKnots\(\))?, (.*?)\);',s,re.S):
    w,fn,arg,kn,exp=m.groups(); line=s[:m.start()].count('\n')+1
    k+=1; exp=exp.strip()
    S=(which if line<400 else {'nurbsJoined':'complex','nurbsJoinedScaled':'complex_scaled'})[w]
    if 'nbInter' in exp: exp='105'
    if fn=='GetKnotVector' and exp.isdigit(): c='passes %s (fun q => num_knots q %s =? %s)'%(S,arg,exp)
    elif fn=='GetNumberOfControlPoints' and exp.isdigit(): c='passes %s (fun q => num_points q =? %s)'%(S,exp)
    elif fn=='GetNumberOfControlPoints': c='passes (a <- %s ;; b <- compared ;; Ok (a, b)) (fun q => num_points (fst q) =? num_points (snd q))'%S
    elif fn=='GetKnotVector': c='passes (a <- %s ;; b <- compared ;; Ok (a, b)) (fun q => num_knots (fst q) 0 =? num_knots (snd q) 0)'%S
    elif fn in('GetControlPoint','GetWeight'):
        z=re.search(r'\(\{(\d+), (\d+)\}\)(?:, (\d))?',m.group(0)); i,j,d=z.groups()
        val=re.search(r'Double(?:Eq|Near)\(([-0-9.]+)',m.group(0))
        get='p <- get_control_point (sp_ph q) [%s; %s] ;; vget p %s'%(i,j,d) if d else 'get_weight (sp_ph q) [%s; %s]'%(i,j)
        if val: c='passes (q <- %s ;; %s) (fun x => double_near %s%%float x %s)'%(S,get,'0x1p-23' if line<400 else hx(.00001),hx(val.group(1))+'%float')
        else: c='passes (q <- %s ;; x <- (%s) ;; q <- compared ;; y <- (%s) ;; Ok (x, y)) (fun r => double_eq (fst r) (snd r))'%(S,get,get)
    elif fn=='GetPointDim': c='passes %s (fun q => sp_pdim q =? %s)'%(S,exp)
    else: raise Exception(m.group(0))
    ex('test/spl/surface_generator_test.cc:%d'%line,'surface_%d'%k,c)
s=src('test/spl/nurbs_test.cc')
out.append('Definition nurbs41 := spline_new (F := Fops) [[0; 0; 0; 1; 2; 3; 3; 3]]%float [2] [[0; 0]; [1; 1]; [3; 2]; [4; 1]; [5; -1]]%float (Some [1; 4; 1; 1; 1]%float).\n')
out.append('Definition a_nurbs := spline_new (F := Fops) [%s] [2] [%s] (Some %s).\n'%(f([0,0,0,.25,.5,.75,.95,1,1,1]),'; '.join(f(x) for x in [[.5,3,1],[1.5,5.5,4],[4.5,5.5,.1],[3,1.5,2],[7.5,1.5,3.5],[6,4,5.3],[8.5,4.5,0]]),f([1,.9,.7,.5,.8,1.2,2])))
k=0
for m in re.finditer(r'TEST_F\((NurbsEx4_1|ANurbs), (\w+)\) \{(.*?)\n\}',s,re.S):
    S={'NurbsEx4_1':'nurbs41','ANurbs':'a_nurbs'}[m.group(1)]; line=s[:m.start()].count('\n')+1
    for a in re.finditer(r'nurbs->Evaluate\(\{ParamCoord\{([^}]*)\}\}, \{(\d)\}\)\[0\],\s*DoubleNear\(([-0-9.]+), ([^)]*)\)',m.group(3)):
        k+=1
        ex('test/spl/nurbs_test.cc:%d %s'%(line,m.group(2)),'nurbs_%d'%k,'passes (q <- %s ;; evaluate q [%s]%%float [%s]) (fun v => match v with [x] => double_near %s x %s | _ => false end)'%(S,hx(eval(a.group(1))),a.group(2),'epsilon' if 'util' in a.group(4) else hx(a.group(4))+'%float',hx(a.group(3))+'%float'))
    for a in re.finditer(r'ASSERT_THROW\(nurbs->Evaluate\(\{ParamCoord\{([^}]*)\}\}',m.group(3)):
        k+=1
        ex('test/spl/nurbs_test.cc:%d %s'%(line,m.group(2)),'nurbs_%d'%k,'throws (q <- %s ;; evaluate q [%s]%%float [0]) RangeError'%(S,hx(a.group(1))))
write('ConformanceGenerators.v','\n'.join(out))
