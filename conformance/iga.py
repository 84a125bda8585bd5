from lib import *
f='example/iga/test/test_spline.h'
out=["""(* The tests of example/iga/test, run on the model with double arithmetic. *)
From Coq Require Import ZArith List Floats Bool.
From Verif Require Import Base MultiIndex KnotVec Basis Spaces SplineEval Gauss Iga IgaSystem ConformanceBase.
Import ListNotations.
Open Scope Z_scope.
Definition near (a b : float) : bool := double_near 0x1.a36e2eb1c432dp-15%float a b.
Definition det2 (m : mat Fops) : float := match m with [[a; b]; [c; d]] => (a * d - b * c)%float | [[a]] => a | _ => PrimFloat.nan end.
Definition inv2 (m : mat Fops) : Res (mat Fops) :=
  match m with
  | [[a; b]; [c; d]] => let t := (a * d - b * c)%float in Ok [[d / t; (0 - b) / t]; [(0 - c) / t; a / t]]%float
  | [[a]] => Ok [[1 / a]]%float
  | _ => UB end.
(* elimination without pivoting, in place of arma::solve; rows carry the right-hand side last *)
Fixpoint solve_rows (fuel : nat) (rows : list (list float)) : list float :=
  match fuel, rows with
  | S k, (p :: row) :: rest =>
      let rest' := map (fun r => match r with q :: r' => map2 (fun x y => (x - q / p * y)%float) r' row | [] => [] end) rest in
      let xs := solve_rows k rest' in
      let s := fold_left (fun t xy => (t - fst xy * snd xy)%float) (combine row xs) (last row PrimFloat.nan) in
      (s / p)%float :: xs
  | _, _ => []
  end.
Definition solve (m : mat Fops) (b : list float) : Res (list float) :=
  Ok (solve_rows (length m) (map (fun x => fst x ++ [snd x]) (combine m b))).
"""]
def arr(file,name):
    t=src('example/iga/test/'+file); i=t.index(name+' ='); j=t.index(';',i)
    x=t[t.index('{',i):j].replace('{','[').replace('}',']').replace('\n','')
    return eval(x)
def m(l): return '['+';\n '.join(fl(r) for r in l)+']%float'
def v(l): return fl(l)+'%float'
out.append(fixture(f,'AnIGATestSpline','tested'))
out.append('Definition rl := two_point (F := Fops).\n')
def ex(file,t,n,code):
    s=src('example/iga/test/'+file); i=s.index('TEST_F(AnIGATestSpline, %s)'%t); j=s.index('\n}',i)
    out.append('(* example/iga/test/%s:%d-%d %s *)\nExample %s : (%s)%%bool = true.\nProof. vm_compute. reflexivity. Qed.\n'%(file,s[:i].count('\n')+1,s[:j].count('\n')+2,t,n,code))
d='matlab_test_data.h'; d2='matlab_test_data_2.h'
zero='(mat_zeros (F := Fops) 49 49)'
prefix='(fun l m => all2 near (firstn (length m) l) m)'
ex('mapping_handler_test.cc','TestMappingHandler','jacobian','passes (s <- tested ;; jacobian_determinant det2 s [%s; %s]%%float) (fun j => near j %s)'%(hx(.367),hx(.893),hx(.0905)))
ex('element_integral_calculator_test.cc','TestElementIntegralCalculator','element_one',
 'passes (s <- tested ;; laplace_matrix det2 inv2 s rl 1%%float 0 %s) (fun a => all2 %s (firstn %d a) %s)'%(zero,prefix,len(arr(d,'matlab_element_one_integral')),m(arr(d,'matlab_element_one_integral'))))
ex('linear_equation_assembler_test.cc','TestLeftSide','left',
 'passes (s <- tested ;; left_side det2 inv2 s rl 1%%float %s) (fun a => all2 (all2 near) a %s)'%(zero,m(arr(d2,'matlab_matrix_a'))))
ex('linear_equation_assembler_test.cc','TestRightSide','right',
 'passes (s <- tested ;; right_side det2 s rl (repeat 1%%float 49) (repeat 0%%float 49)) (fun b => all2 near b %s)'%v(arr(d2,'matlab_vector_b')))
sys_='s <- tested ;; a <- left_side det2 inv2 s rl 1%%float %s ;; b <- right_side det2 s rl (repeat 1%%float 49) (repeat 0%%float 49) ;; set_zero (F := Fops) (ph_npts (sp_ph s)) a b'%zero
ex('linear_equation_assembler_test.cc','TestEquationSystemWithBC','conditions',
 'passes (%s) (fun ab => all2 (all2 near) (fst ab) %s && all2 near (snd ab) %s)'%(sys_,m(arr(d2,'matlab_matrix_a_bc')),v(arr(d2,'matlab_vector_b_bc'))))
ex('linear_equation_assembler_test.cc','TestSolution','solution',
 'passes (ab <- (%s) ;; solve (fst ab) (snd ab)) (fun x => all2 near x %s)'%(sys_,v(arr(d2,'matlab_solution'))))
def local(file,t,nm):
    s=src('example/iga/test/'+file); i=s.index('TEST_F(AnIGATestSpline, %s)'%t); j=s.index('\n}',i); b=s[i:j]
    k=re.search(r'\b'+nm+r'\s*=\s*\{([^}]*)\}',b); return [float(x) for x in k.group(1).replace('\n','').split(',')]
b='basis_function_handler_test.cc'
import re as _re
s=src('example/iga/test/'+b)
for t,fn,der in _re.findall(r'TEST_F\(AnIGATestSpline, (\w+)\).*?basis_function_handler\.\s*(\w+)\((.*?), rule\)',s,_re.S):
    el=int(_re.sub(r'\D','',der) or 0)
    if 'Der' not in fn:
        names=_re.findall(r'std::vector<double> (\w+) = \{',s[s.index('AnIGATestSpline, %s)'%t):s.index('\n}',s.index('AnIGATestSpline, %s)'%t))])
        want='['+';\n '.join(v(local(b,t,x)) for x in names)+']'
        ex(b,t,'test_'+t,'passes (s <- tested ;; element_points det2 s rl %d (nonzero_nurbs s)) (fun ps => all2 (fun p w => all2 near (fst (fst p)) w) ps %s)'%(el,want))
    else:
        func='physical_derivs inv2 s' if 'Physical' in fn else 'nonzero_nurbs_derivs s'
        w='['+'; '.join('['+'; '.join(v(local(b,t,'i%d_%d'%(q,i))) for i in (1,2))+']' for q in (1,2,3,4))+']'
        ex(b,t,'test_'+t,'passes (s <- tested ;; element_points det2 s rl %d (%s)) (fun ps => all2 (fun p w => all2 (all2 near) (fst (fst p)) w) ps %s)'%(el,func,w))
conn=[[int(x) for x in g.split(',')] for g in _re.findall(r'std::vector<int> e\d = \{([^}]*)\}',src('example/iga/test/connectivity_handler_test.cc'))]
ex('connectivity_handler_test.cc','TestConnectivityHandler','connectivity',
 'passes (s <- tested ;; mapM (fun e => mapM (global_index s e) (zseq 0 16)) (zseq 0 8)) (fun l => all2 (all2 Z.eqb) l [%s])'%'; '.join('[%s]'%'; '.join(map(str,r)) for r in conn))
f3=fixture('example/iga/test/bdf_handler_test.cc','ALine','line')
out.append(f3)
out.append("""Definition trunc (x : float) : Z := Z.of_nat (length (filter (fun i => PrimFloat.leb (float_of_Z i) x) (zseq 1 1000))).
(* example/iga/test/bdf_handler_test.cc TEST_F(ALine, Test) *)
Example unsteady_tends_to_steady : passes (s <- line ;; pr <- problem_new s (four_point (F := Fops)) ;;
   u <- unsteady det2 inv2 solve trunc pr 0.5%float 100%float None ;; x <- steady det2 inv2 solve (snd u) ;; Ok (fst u, fst x))
  (fun r => (Z.eqb (zlen (fst r)) 201 && all2 (double_near 0x1.0624dd2f1a9fcp-11%float) (last (fst r) []) (snd r))%bool) = true.
Proof. vm_compute. reflexivity. Qed.
""")
write('ConformanceIga.v','\n'.join(out))
