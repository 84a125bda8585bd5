import re, sys
OUT=sys.argv[1]
R='/repo/'
def hx(x):
    x=float(x)
    if x==0: return '0'
    h=x.hex()
    m=re.match(r'(-?)0x1\.([0-9a-f]+)p([+-]\d+)$',h)
    s,f,e=m.groups(); f=f.rstrip('0')
    t=('0x1.%sp%s'%(f,e) if f else '0x1p%s'%e)
    if x==int(x) and abs(x)<1e9: t=str(abs(int(x)))
    elif (x*64)==int(x*64): t=repr(abs(x))
    return '(-%s)'%t if s else t
def lst(l): return '['+'; '.join(l)+']'
def fl(l): return lst([hx(x) for x in l])
def src(f): return open(R+f).read()
def evalnum(t):
    t=t.strip()
    return eval(re.sub(r'(?<![\w.])(\d+)(?![\w.])',r'\1.0',t)) if t else None
def body(f,cls):
    s=src(f); i=s.index('class %s '%cls); j=s.index('\n};',i)
    return s[i:j], s[:i].count('\n')+1, s[:j].count('\n')+2
names={'zero':0,'one':1,'two':2}
def knots(t):
    r=[]
    for m in re.finditer(r'KnotVector\(\{(.*?)\}\)\s*[)},;]',t,re.S):
        l=[]
        for x in re.split(r',\s*',m.group(1)):
            x=x.strip()
            y=re.match(r'ParamCoord[{(](.*)[)}]$',x)
            l.append(evalnum(y.group(1)) if y else names[x])
        r.append(l)
    return r
def cps(t):
    return [[evalnum(y) for y in m.group(1).split(',')] for m in re.finditer(r'ControlPoint\((?:std::vector<double>\()?\{([^}]*)\}\)',t)]
def fixture(f,cls,name):
    t,a,b=body(f,cls)
    degs=[int(x) for x in re.findall(r'Degree\{(\d+)\}',t)]
    kv=knots(t)[:len(degs)]
    assert len(kv)==len(degs),(cls,len(kv),len(degs))
    c=cps(t)
    w=re.search(r'weights_? = \{([^}]*)\}',t)
    ws=[evalnum(x) for x in w.group(1).split(',')] if w else None
    o='(* %s:%d-%d %s *)\n'%(f,a,b,cls)
    o+='Definition %s : Res (spline Fops) := spline_new (F := Fops)\n  %s%%float\n  [%s]\n  [%s]%%float\n  %s.\n'%(name,
      lst([fl(k) for k in kv]),'; '.join(map(str,degs)),';\n   '.join(fl(p) for p in c),
      '(Some %s%%float)'%fl(ws) if ws else 'None')
    return o
def test(f,cls,tn):
    s=src(f); m=re.search(r'TEST_F\(%s,[^)]*?\b%s\)'%(cls,tn),s); i=m.start(); j=s.index('\n}',i)
    return s[i:j],s[:i].count('\n')+1,s[:j].count('\n')+2

BASE=r'''(* What the repository's unit tests assert, as booleans over the model with double arithmetic. *)
From Coq Require Import ZArith List Floats Bool.
From Verif Require Import Base MultiIndex KnotVec Basis VecUtils Spaces SplineEval SplineEdit SplineDegree.
Import ListNotations.
Open Scope Z_scope.

(* gmock's DoubleEq accepts four units in the last place; this is at most that: half as much as 2^-50 relative. *)
Definition double_eq (a b : float) : bool :=
  (PrimFloat.eqb a b || PrimFloat.leb (PrimFloat.abs (a - b)) (0x1p-51 * PrimFloat.abs b))%bool%float.
(* gmock's DoubleNear(b, tolerance) *)
Definition double_near (tolerance a b : float) : bool := PrimFloat.leb (PrimFloat.abs (a - b)%float) tolerance.

Fixpoint all2 {A B} (p : A -> B -> bool) (l : list A) (m : list B) : bool :=
  match l, m with
  | [], [] => true
  | a :: l', b :: m' => (p a b && all2 p l' m')%bool
  | _, _ => false
  end.
Definition points_eq (l m : list (list float)) : bool := all2 (all2 double_eq) l m.

(* The run returns and its result passes the test. *)
Definition passes {A} (m : Res A) (p : A -> bool) : bool := match m with Ok a => p a | _ => false end.
Definition throws {A} (m : Res A) (e : exn) : bool :=
  match m, e with
  | Throw RuntimeError, RuntimeError | Throw RangeError, RangeError | Throw InvalidArgument, InvalidArgument => true
  | _, _ => false
  end.

Definition knots_of (s : spline Fops) (d : nat) : list float := nth d (ps_knots (sp_ps s)) [].
Definition num_knots (s : spline Fops) (d : nat) : Z := zlen (knots_of s d).
Definition knot_of (s : spline Fops) (d i : nat) : float := nth i (knots_of s d) PrimFloat.nan.
Definition num_points (s : spline Fops) : Z := fold_right Z.mul 1 (ph_npts (sp_ph s)).
Definition degree_of (s : spline Fops) (d : nat) : Z := nth d (ps_degs (sp_ps s)) (-1).
Definition per_direction (s : spline Fops) (d : nat) : Z := nth d (ph_npts (sp_ph s)) (-1).
(* the points of a curve, one list per control point *)
Definition curve_points (s : spline Fops) : Res (list (list float)) :=
  mapM (fun i => get_control_point (sp_ph s) [i]) (zseq 0 (Z.to_nat (num_points s))).
Definition curve_weights (s : spline Fops) : Res (list float) :=
  mapM (fun i => get_weight (sp_ph s) [i]) (zseq 0 (Z.to_nat (num_points s))).
Definition points_are (s : spline Fops) (l : list (list float)) : bool := passes (curve_points s) (fun m => points_eq m l).
Definition weights_are (s : spline Fops) (l : list float) : bool := passes (curve_weights s) (fun m => all2 double_eq m l).
(* AreGeometricallyEqual with the number of samples of the dimension (spline.h:98): 100, 10, 5 *)
Definition samples (s : spline Fops) : Z := match ps_degs (sp_ps s) with [_] => 100 | [_; _] => 10 | _ => 5 end.
Definition geometric (s t : spline Fops) (tolerance : float) (b : bool) : bool :=
  passes (geometrically_equal s t tolerance (samples s)) (Bool.eqb b).
Definition epsilon : float := kEpsilon (F := Fops).
(* a parameter swept from 0 to n/d in steps of 1/d *)
Definition sweep (n : nat) (d : float) : list float := map (fun i => (float_of_Z (Z.of_nat i) / d)%float) (seq 0 (S n)).
Definition same_values (near : float -> float -> bool) (s t : spline Fops) (us : list (list float)) (dims : list Z) : bool :=
  forallb (fun u => match evaluate s u dims, evaluate t u dims with Ok a, Ok b => all2 near a b | _, _ => false end) us.
'''
def write(name,text):
    open(OUT+'/ConformanceBase.v','w').write(BASE)
    open(OUT+'/'+name,'w').write(text)
