(* The iterations of point projection. *)
From Coq Require Import ZArith List Bool Lia Reals Lra.
From Verif Require Import Base BaseFacts RSum MultiIndex MultiIndexSpec MultiIndexFacts TensorSum VecUtils VecThms
  KnotVec KnotVecSpec KnotVecFacts Basis BasisSpec BSplineTheory BasisFacts DegreeSpec DegreeFacts DegreeThms
  Spaces SpacesSpec SpacesFacts SplineEval SplineSpec EvalFacts EvalDeriv EvalThms Iga IgaSpec IgaThms
  GeneratorsFacts GeneratorsThms Projection ProjectionFacts ProjectionThms.
From Verif Require Import VecSpec GrevilleSpec GrevilleFacts NewtonSpec.
Import ListNotations.
Open Scope Z_scope.

Lemma clamp_in kv x : (first_knot kv <= final_knot kv)%R -> nearest_in kv x (clamp kv x).
Proof. intros H. split; [now apply clamp_range|]. intros w Hw. now apply clamp_nearest. Qed.

Lemma tiles_at l : forall a b x, tiles a b l -> (a < x < b)%R -> exists e, In e l /\ (fst e <= x <= snd e)%R.
Proof.
  induction l as [|[c d] l IH]; intros a b x H Hx; cbn [tiles] in H; [lra|]. destruct H as (-> & H1 & H2).
  destruct (Rle_dec x d) as [Hd|Hd].
  - exists (c, d). split; [now left|]. cbn [fst snd]. lra.
  - destruct (IH _ _ x H2) as (e & He & Hi); [lra|]. exists e. split; auto. now right.
Qed.
Lemma interval_unique kv p k k' e e' x : 0 <= p -> nondecreasing kv -> knot_interval kv p k e -> knot_interval kv p k' e' -> (fst e < x < snd e)%R -> (fst e' <= x <= snd e')%R -> e = e'.
Proof.
  intros Hp Hn (A & -> & _) (A' & -> & _) Hx Hx'. cbn [fst snd] in *.
  destruct (Z.lt_trichotomy k k') as [L|[L|L]]; [|subst; reflexivity|]; exfalso.
  - assert (knot kv (Z.to_nat (k + 1)) <= knot kv (Z.to_nat k'))%R by (apply Hn; lia). lra.
  - assert (knot kv (Z.to_nat (k' + 1)) <= knot kv (Z.to_nat k))%R by (apply Hn; lia). lra.
Qed.
Lemma interval_in kv p k e : nondecreasing kv -> 0 <= p -> knot_interval kv p k e -> (first_knot kv <= fst e /\ snd e <= final_knot kv)%R.
Proof.
  intros Hn Hp (A & -> & _). cbn [fst snd]. unfold first_knot, final_knot. split; apply Hn; lia.
Qed.

Section Real.
Context {dz : R -> R}.
Notation F := (Rops dz).
Implicit Types s : spline F.

Lemma converged_spec (ds : list R) (tol : R) : if is_converged (F := F) ds tol then Forall (fun x => Rabs x < tol)%R ds else Exists (fun x => tol <= Rabs x)%R ds.
Proof.
  unfold is_converged. induction ds as [|d ds IH]; cbn [forallb]; [constructor|].
  rnorm. destruct (Rleb_spec tol (Rabs d)) as [H|H]; cbn [negb andb].
  - now constructor.
  - destruct (forallb _ ds) in *; [constructor; auto; lra | now apply Exists_cons_tl].
Qed.

Lemma newton_iterates (f : list R -> Res (list R * bool)) (step : list R -> list R -> list R -> Prop) (P : list R -> Prop) (tol : R) :
  (forall us, P us -> exists us' ds, f us = Ok (us', is_converged (F := F) ds tol) /\ step us ds us' /\ P us') ->
  forall fuel it us, it + Z.of_nat fuel = 1001 -> 0 <= it <= 1000 -> P us ->
  exists us', newton (F := F) f fuel it us = Ok (Some us') /\
  exists (n : nat) (u d : nat -> list R), it + Z.of_nat n <= 1000 /\ u O = us /\ u (S n) = us' /\
    (forall k, (k <= n)%nat -> step (u k) (d k) (u (S k))) /\
    (forall k, (k < n)%nat -> Exists (fun x => tol <= Rabs x)%R (d k)) /\
    (Forall (fun x => Rabs x < tol)%R (d n) \/ it + Z.of_nat n = 1000).
Proof.
  intros Hs. induction fuel as [|fuel IH]; intros it us H Hit Hp; [lia|]. cbn [newton].
  destruct (Hs us Hp) as (v & ds & E & St & Pv). rewrite E. cbn [bind fst snd].
  pose proof (converged_spec ds tol) as C.
  assert (One : Forall (fun x => Rabs x < tol)%R ds \/ it = 1000 -> exists (n : nat) (u d : nat -> list R), it + Z.of_nat n <= 1000 /\ u O = us /\ u (S n) = v /\
    (forall k, (k <= n)%nat -> step (u k) (d k) (u (S k))) /\ (forall k, (k < n)%nat -> Exists (fun x => tol <= Rabs x)%R (d k)) /\
    (Forall (fun x => Rabs x < tol)%R (d n) \/ it + Z.of_nat n = 1000)).
  { intros Or. exists O, (fun k => match k with O => us | S _ => v end), (fun _ => ds). repeat split; auto; try lia.
    - intros k Hk. replace k with O by lia. exact St.
    - destruct Or; [auto | right; lia]. }
  destruct (Z.ltb_spec 1000 (it + 1)) as [L|L].
  - exists v. split; auto. apply One. right. lia.
  - destruct (is_converged (F := F) ds tol).
    + exists v. split; auto.
    + destruct (IH (it + 1) v) as (w & Ew & n & u & d & A1 & A2 & A3 & A4 & A5 & A6); auto; try lia.
      exists w. split; auto. exists (S n), (fun k => match k with O => us | S k => u k end), (fun k => match k with O => ds | S k => d k end).
      split; [lia|]. split; [reflexivity|]. split; [exact A3|]. split; [|split].
      * intros [|k] Hk; [rewrite A2; exact St | apply A4; lia].
      * intros [|k] Hk; [exact C | apply A5; lia].
      * destruct A6; [now left | right; lia].
Qed.

(* ---- curves ---- *)
Lemma initial_curve_nearest s kv p (pt : list R) : well_formed s -> knots_of s = [kv] -> degs_of s = [p] -> first_knot kv = 0%R ->
  zlen pt <= ph_dim (sp_ph s) -> exists u : R, initial_curve (F := F) pt s (all_dimensions (F := F) pt) = Ok [u] /\ in_domain s [u] /\ nearest_middle s kv p pt u.
Proof.
  intros Hwf Ek Ed E0 Hd. pose proof (wf_directions s Hwf) as Hg. rewrite Ek, Ed in Hg. inversion Hg as [|? ? ? ? Hg1 _]; subst. clear Hg.
  destruct (elements_tile (dz := dz) kv p Hg1) as (es & Ee & Hne & Ht & Hk).
  assert (Dom : forall u, (first_knot kv <= u <= final_knot kv)%R -> in_domain s [u]) by (intros u Hu; unfold in_domain; rewrite Ek; constructor; auto).
  assert (All : forall k e, knot_interval kv p k e -> In e es).
  { intros k e He. destruct Hg1 as (Hp & _ & Hn & _ & _). pose proof (interval_in kv p k e Hn Hp He) as [I1 I2]. pose proof He as (_ & _ & Hlt).
    destruct (tiles_at es _ _ ((fst e + snd e) / 2)%R Ht) as (e' & Hin & Hx); [lra|].
    destruct (Hk e' Hin) as (k' & He'). rewrite (interval_unique kv p k k' e e' ((fst e + snd e) / 2)%R); auto. lra. }
  unfold initial_curve. rewrite (sp_knots_at s 0 kv) by (rewrite Ek; reflexivity). rewrite (sp_deg_at s 0 p) by (rewrite Ed; reflexivity).
  cbn [bind]. step Ee.
  destruct es as [|e0 es]; [congruence|].
  assert (E1 : vget (e0 :: es) 0 = Ok e0) by reflexivity. rnorm. rewrite E1. cbn [bind]. clear E1.
  assert (F0 : fst e0 = 0%R) by (destruct e0; cbn [tiles fst] in *; destruct Ht as (Ex0 & _); lra).
  pose proof (tiles_inside _ _ _ e0 Ht (or_introl eq_refl)) as I0.
  rewrite half_R.
  destruct (eval_pt s [(1 / 2 * (snd e0 - fst e0))%R] pt Hwf) as (x0 & Ex & Lx); auto; [apply Dom; lra|].
  rewrite Ex. cbn [bind]. rewrite (distance_ok dz pt x0) by auto. cbn [bind].
  set (mid := fun e : R * R => ((fst e + snd e) / 2)%R).
  assert (M0 : (1 / 2 * (snd e0 - fst e0))%R = mid e0) by (unfold mid; rewrite F0; field).
  assert (Mm : forall e, (1 / 2 * (snd e - fst e) + fst e)%R = mid e) by (intros e; unfold mid; field).
  destruct (for_up_inv (fun j (acc : R * R) => distance_at s pt [fst acc] (snd acc) /\ (exists e, In e (e0 :: es) /\ fst acc = mid e) /\
         forall i, (Z.of_nat i < j) -> (i < length (e0 :: es))%nat -> exists q, distance_at s pt [mid (nth i (e0 :: es) e0)] q /\ (snd acc <= q)%R) 1 (zlen (e0 :: es)) (fun i (acc : R * R) =>
         e <- vget (e0 :: es) i ;; x <- evaluate s [(1 / 2 * (snd e - fst e) + fst e)%R] (all_dimensions (F := F) pt) ;; d <- distance (F := F) pt x ;;
         Ok (if Rltb d (snd acc) then ((1 / 2 * (snd e - fst e) + fst e)%R, d) else acc)) ((1 / 2 * (snd e0 - fst e0))%R, euclid pt x0)) as (r & Er & Ir1 & (e & Ie & Ir2) & Ir3).
  - unfold zlen. cbn [length]. lia.
  - intros j acc Hj (A1 & A2 & A3). rewrite (vget_nth (e0 :: es) j e0) by lia. cbn [bind].
    assert (Hj' : (Z.to_nat j < length (e0 :: es))%nat) by (clear - Hj; unfold zlen in Hj; lia).
    pose proof (tiles_inside _ _ _ (nth (Z.to_nat j) (e0 :: es) e0) Ht (nth_In _ _ Hj')) as I1.
    assert (Inj := nth_In (e0 :: es) e0 Hj').
    assert (Enth : forall i, i = Z.to_nat j -> nth i (e0 :: es) e0 = nth (Z.to_nat j) (e0 :: es) e0) by (intros; subst; auto).
    set (e := nth (Z.to_nat j) (e0 :: es) e0) in *.
    destruct (eval_pt s [(1 / 2 * (snd e - fst e) + fst e)%R] pt Hwf) as (x & Ex' & Lx'); auto; [apply Dom; lra|].
    rewrite Ex'. cbn [bind]. rewrite (distance_ok dz pt x) by auto. cbn [bind].
    eexists. split; [reflexivity|]. rewrite Mm in *.
    assert (Dj : distance_at s pt [mid e] (euclid pt x)) by (exists x; split; auto).
    destruct (Rltb_spec (euclid pt x) (snd acc)) as [L|L]; cbn [fst snd].
    + split; [exact Dj|]. split; [exists e; auto|]. intros i Hi Hl. destruct (Z.eq_dec (Z.of_nat i) j) as [E|E].
      * exists (euclid pt x). rewrite Enth by lia. split; auto. lra.
      * destruct (A3 i) as (q & Q1 & Q2); [lia | auto|]. exists q. split; auto. lra.
    + split; auto. split; auto. intros i Hi Hl. destruct (Z.eq_dec (Z.of_nat i) j) as [E|E].
      * exists (euclid pt x). rewrite Enth by lia. split; auto. lra.
      * apply A3; auto. lia.
  - cbn [fst snd]. rewrite M0 in *. assert (D0 : distance_at s pt [mid e0] (euclid pt x0)) by (exists x0; split; auto).
    split; [exact D0|]. split; [exists e0; split; [now left | auto]|].
    intros i Hi Hl. assert (i = O) by lia. subst i. exists (euclid pt x0). split; [exact D0 | lra].
  - exists (fst r). split; [|split].
    + exact (f_equal (fun m : Res (R * R) => bind m (fun r => Ok [fst r])) Er).
    + rewrite Ir2. apply Dom. pose proof (tiles_inside _ _ _ e Ht Ie). unfold mid. lra.
    + exists (snd r). split; [exact Ir1|]. split.
      * destruct (Hk e Ie) as (k & Hke). exists k, e. split; auto.
      * intros k e' He'. destruct (In_nth _ _ e0 (All k e' He')) as (i & Hi & Ei). rewrite <- Ei. apply Ir3; auto. unfold zlen. lia.
Qed.

Lemma curve_iterates s (pt : list R) kv p tol : well_formed s -> knots_of s = [kv] -> degs_of s = [p] -> zlen pt <= ph_dim (sp_ph s) -> first_knot kv = 0%R ->
  exists (u0 : R) us, project_curve (F := F) (Z.to_nat 1001) pt s tol = Ok (Some us) /\
    nearest_middle s kv p pt u0 /\ iterates (curve_step s kv pt) tol [u0] us.
Proof.
  intros Hwf Ek Ed Hd E0. destruct (initial_curve_nearest s kv p pt Hwf Ek Ed E0 Hd) as (u0 & Ei & Hu & Hm).
  assert (Hg : good_direction kv p). { pose proof (wf_directions s Hwf) as Hg. rewrite Ek, Ed in Hg. now inversion Hg. }
  destruct (good_ends (dz := dz) kv p Hg) as [Hl Hle].
  unfold project_curve. rewrite Ei. cbn [bind].
  destruct (newton_iterates (step_curve (F := F) pt s tol) (curve_step s kv pt) (fun us => exists v : R, us = [v] /\ in_domain s [v]) tol) with (fuel := Z.to_nat 1001) (it := 0) (us := [u0])
    as (us & E & n & u & d & H); try lia; [|eauto|].
  - intros us (v & -> & Hv).
    destruct (eval_pt s [v] pt Hwf Hv Hd) as (cur & Ec & Lc).
    destruct (deriv_pt s [v] pt [1] Hwf Hv Hd) as (deriv & Eder & Lder); [rewrite Ed; reflexivity | repeat constructor; lia|].
    set (dl := ndiv (n := F) (dot deriv (map2 Rminus pt cur)) (dot deriv deriv) : R).
    exists [clamp kv (v + dl)], [dl]. split; [|split].
    + unfold step_curve. rewrite Eder, Ec. cbn [bind]. unfold delta_curve. step (diff_ok (dz := dz) pt cur (eq_sym Lc)).
      assert (Lm : length deriv = length (map2 Rminus pt cur)) by (rewrite map2_length; [exact Lder | exact (eq_sym Lc)]).
      rewrite (scalar_value deriv _ Lm). cbn [bind]. rewrite scalar_value by auto. cbn [bind].
      unfold update_point. cbn [map2]. rewrite (check_ok s kv); [reflexivity | rewrite Ek; reflexivity | exact Hl].
    + exists v, dl, (clamp kv (v + dl)), deriv, cur. repeat (split; [reflexivity || assumption|]). split; [|now apply clamp_in].
      intros Hz. unfold dl. now rewrite (ndiv_R dz).
    + eexists. split; [reflexivity|]. unfold in_domain. rewrite Ek. constructor; [|constructor]. now apply clamp_range.
  - exists u0, us. split; [exact E|]. split; [exact Hm|]. exists n, u, d. exact H.
Qed.

(* ---- surfaces ---- *)
Lemma normal_solution (a b c x y : R) : (a * c - b * b <> 0)%R -> exists p q, (x = p * a + q * b /\ y = p * b + q * c)%R.
Proof.
  intros H. exists ((x * c - b * y) / (a * c - b * b))%R, ((a * y - b * x) / (a * c - b * b))%R. split; field; exact H.
Qed.
Lemma delta_surface_normal (cur d1 d2 pt : list R) (x y : R) : length pt = 3%nat -> length cur = 3%nat -> length d1 = 3%nat -> length d2 = 3%nat ->
  delta_surface (F := F) cur d1 d2 pt = Ok [x; y] -> (dot d1 d1 * dot d2 d2 - dot d1 d2 * dot d1 d2 <> 0)%R ->
  (dot (map2 Rminus pt cur) d1 = x * dot d1 d1 + y * dot d2 d1)%R /\ (dot (map2 Rminus pt cur) d2 = x * dot d1 d2 + y * dot d2 d2)%R.
Proof.
  intros L L0 L1 L2 E Hne.
  destruct (normal_solution (dot d1 d1) (dot d1 d2) (dot d2 d2) (dot (map2 Rminus pt cur) d1) (dot (map2 Rminus pt cur) d2) Hne) as (x' & y' & E1 & E2).
  rewrite (delta_surface_exact cur d1 d2 pt x' y') in E; auto; [|now rewrite (dot_comm d2 d1)].
  injection E as <- <-. split; auto. now rewrite (dot_comm d2 d1).
Qed.

Section Surface.
Variables (s : spline F) (k1 k2 : list R) (p1 p2 : Z) (pt : list R).
Hypotheses (Hwf : well_formed s) (Ek : knots_of s = [k1; k2]) (Ed : degs_of s = [p1; p2])
  (Hd : zlen pt <= ph_dim (sp_ph s)) (F1 : first_knot k1 = 0%R) (F2 : first_knot k2 = 0%R).
Notation last1 := (final_knot k1).
Notation last2 := (final_knot k2).

Lemma initial_surface_nearest (m n : Z) : 1 <= m -> 1 <= n -> exists us, initial_surface (F := F) (m, n) pt s (all_dimensions (F := F) pt) = Ok us /\
  (exists u v : R, us = [u; v] /\ in_domain s [u; v]) /\ nearest_sample s last1 last2 m n pt us.
Proof.
  intros Hm Hn. destruct (surface_dirs s k1 k2 p1 p2 Hwf Ek Ed F1 F2) as (L1 & L2 & N1 & N2). unfold initial_surface.
  rewrite (sp_knots_at s 0 k1) by (rewrite Ek; reflexivity). rewrite (sp_knots_at s 1 k2) by (rewrite Ek; reflexivity). cbn [bind].
  rewrite !first_ok, !last_knot_ok by auto. cbn [bind fst snd]. rewrite F1, F2.
  assert (SD := surface_domain s k1 k2 Ek F1 F2).
  assert (D0 : in_domain s [0; 0]%R) by (apply SD; lra).
  destruct (eval_pt s [0; 0]%R pt Hwf D0 Hd) as (x0 & E0 & Lx0). step E0. step (distance_ok dz pt x0 (eq_sym Lx0)).
  set (at_ := fun i j : Z => [IZR i * last1 / IZR m; IZR j * last2 / IZR n]%R).
  set (body := fun i j (acc : list R * R) =>
     x <- evaluate s [ndiv (n := F) (IZR i * (final_knot k1 - 0))%R (IZR m); ndiv (n := F) (IZR j * (final_knot k2 - 0))%R (IZR n)] (all_dimensions (F := F) pt) ;;
     d <- distance (F := F) pt x ;;
     Ok (if Rltb d (snd acc) then ([ndiv (n := F) (IZR i * (final_knot k1 - 0))%R (IZR m); ndiv (n := F) (IZR j * (final_knot k2 - 0))%R (IZR n)] : list R, d) else acc)).
  assert (Eat : forall i j : Z, [ndiv (n := F) (IZR i * (final_knot k1 - 0))%R (IZR m); ndiv (n := F) (IZR j * (final_knot k2 - 0))%R (IZR n)] = at_ i j).
  { intros i j. unfold at_. assert (IZR m <> 0%R) by (apply not_0_IZR; lia). assert (IZR n <> 0%R) by (apply not_0_IZR; lia). rewrite !(ndiv_R dz) by auto. now rewrite !Rminus_0_r. }
  (* passed i j a b: the sample a, b comes before i, j *)
  set (Inv := fun (before : Z -> Z -> Prop) (acc : list R * R) => (exists u v : R, fst acc = [u; v] /\ in_domain s [u; v]) /\ distance_at s pt (fst acc) (snd acc) /\
     sample last1 last2 m n (fst acc) /\ (exists q, distance_at s pt [0; 0]%R q /\ (snd acc <= q)%R) /\
     forall a b, 1 <= a <= m -> 1 <= b <= n -> before a b -> exists q, distance_at s pt (at_ a b) q /\ (snd acc <= q)%R).
  assert (Hin : forall i acc, 1 <= i <= m -> Inv (fun a _ => a < i) acc -> exists acc', for_up 1 (n + 1) (body i) acc = Ok acc' /\ Inv (fun a _ => a < i + 1) acc').
  { intros i acc Hi Ha.
    destruct (for_up_inv (fun j => Inv (fun a b => a < i \/ a = i /\ b < j)) 1 (n + 1) (body i) acc) as (r & E & I); try lia.
    - intros j st Hj (I1 & I2 & I3 & I4 & I5). unfold body. rewrite Eat.
      assert (Dij : in_domain s (at_ i j)).
      { rewrite <- Eat. apply SD. split; apply (sample_range (dz := dz)); auto; lia. }
      destruct (eval_pt s (at_ i j) pt Hwf Dij Hd) as (x & E & Lx). step E. step (distance_ok dz pt x (eq_sym Lx)).
      assert (Dx : distance_at s pt (at_ i j) (euclid pt x)) by (exists x; split; auto).
      eexists. split; [reflexivity|].
      assert (Sij : sample last1 last2 m n (at_ i j)) by (right; exists i, j; repeat split; auto; lia).
      destruct (Rltb_spec (euclid pt x) (snd st)) as [L|L]; unfold Inv; cbn [fst snd].
      + split; [eexists; eexists; split; [reflexivity | exact Dij]|]. split; [exact Dx|]. split; [exact Sij|].
        split; [destruct I4 as (q & Q1 & Q2); exists q; split; auto; lra|].
        intros a b Ha' Hb' Hbef. destruct (Z.eq_dec a i) as [->|Na]; [destruct (Z.eq_dec b j) as [->|Nb]|].
        * exists (euclid pt x). split; auto. lra.
        * destruct (I5 i b) as (q & Q1 & Q2); auto; [right; lia|]. exists q. split; auto. lra.
        * destruct (I5 a b) as (q & Q1 & Q2); auto; [left; lia|]. exists q. split; auto. lra.
      + split; [exact I1|]. split; [exact I2|]. split; [exact I3|]. split; [exact I4|].
        intros a b Ha' Hb' Hbef. destruct (Z.eq_dec a i) as [->|Na]; [destruct (Z.eq_dec b j) as [->|Nb]|].
        * exists (euclid pt x). split; auto. lra.
        * apply I5; auto. right; lia.
        * apply I5; auto. left; lia.
    - destruct Ha as (I1 & I2 & I3 & I4 & I5). repeat (split; [assumption|]). intros a b H1 H2 [H3|H3]; [now apply I5 | lia].
    - exists r. split; auto. destruct I as (I1 & I2 & I3 & I4 & I5). repeat (split; [assumption|]). intros a b H1 H2 H3. apply I5; auto. lia. }
  destruct (for_up_inv (fun i => Inv (fun a _ => a < i)) 1 (m + 1) (fun i acc => for_up 1 (n + 1) (body i) acc) ([0; 0]%R, euclid pt x0)) as (r & E & (I1 & I2 & I3 & I4 & I5)); try lia.
  - intros i st Hi Ha. apply Hin; auto. lia.
  - assert (Dx : distance_at s pt [0; 0]%R (euclid pt x0)) by (exists x0; split; auto).
    unfold Inv; cbn [fst snd]. split; [eexists; eexists; split; [reflexivity | exact D0]|]. split; [exact Dx|]. split; [now left|]. split; [exists (euclid pt x0); split; auto; lra|]. intros; lia.
  - exists (fst r). split; [|split].
    + exact (f_equal (fun m : Res (list R * R) => bind m (fun r => Ok (fst r))) E).
    + exact I1.
    + exists (snd r). split; [exact I2|]. split; [exact I3|]. intros vs [->|(a & b & Ha & Hb & ->)]; [exact I4|]. apply I5; auto. lia.
Qed.

Lemma surface_iterates (m n : Z) tol : length pt = 3%nat -> final_knot k1 = final_knot k2 -> 1 <= m -> 1 <= n ->
  exists us0 us, project_surface (F := F) (Z.to_nat 1001) pt s (m, n) tol = Ok (Some us) /\
    nearest_sample s last1 last2 m n pt us0 /\ iterates (surface_step s k1 k2 pt) tol us0 us.
Proof.
  intros L3 El Hm Hn. destruct (initial_surface_nearest m n Hm Hn) as (us0 & Ei & D0 & H0).
  destruct (surface_dirs s k1 k2 p1 p2 Hwf Ek Ed F1 F2) as (L1 & L2 & N1 & N2).
  assert (Same : forall x, clamp k1 x = clamp k2 x) by (intros x; unfold clamp; now rewrite F1, F2, El).
  unfold project_surface. rewrite Ei. cbn [bind].
  destruct (newton_iterates (step_surface (F := F) pt s tol) (surface_step s k1 k2 pt) (fun us => exists u v : R, us = [u; v] /\ in_domain s [u; v]) tol)
    with (fuel := Z.to_nat 1001) (it := 0) (us := us0) as (us & E & n' & u & d & H); try lia; [|exact D0|].
  - intros us (u & v & -> & Hu).
    destruct (eval_pt s [u; v] pt Hwf Hu Hd) as (cur & Ec & Lc).
    destruct (deriv_pt s [u; v] pt [1; 0] Hwf Hu Hd) as (d1 & E1 & Ld1); [rewrite Ed; reflexivity | repeat constructor; lia|].
    destruct (deriv_pt s [u; v] pt [0; 1] Hwf Hu Hd) as (d2 & E2 & Ld2); [rewrite Ed; reflexivity | repeat constructor; lia|].
    destruct (delta_surface_total (dz := dz) cur d1 d2 pt ltac:(lia) Lc Ld1 Ld2) as (x & y & Edel).
    exists [clamp k1 (u + x); clamp k1 (v + y)], [x; y]. split; [|split].
    + unfold step_surface. rewrite E1, E2, Ec. cbn [bind]. rewrite Edel. cbn [bind]. unfold update_point. cbn [map2].
      rewrite (check_ok s k1); [cbn [bind map]; reflexivity | rewrite Ek; reflexivity | exact L1].
    + exists u, v, x, y, (clamp k1 (u + x)), (clamp k1 (v + y)), d1, d2, cur. repeat (split; [reflexivity || assumption|]). split; [|split].
      * intros Hne. apply delta_surface_normal; auto; etransitivity; eassumption.
      * apply clamp_in. lra.
      * rewrite Same. apply clamp_in. lra.
    + eexists. eexists. split; [reflexivity|]. apply (surface_domain s k1 k2 Ek F1 F2). rewrite <- El, <- F1. split; apply clamp_range; lra.
  - exists us0, us. split; [exact E|]. split; [exact H0|]. exists n', u, d. exact H.
Qed.
End Surface.
End Real.
