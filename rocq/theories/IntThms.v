(* Where int arithmetic overflows; splines from the constructor; examples. *)
From Coq Require Import ZArith List Bool Lia Reals Lra.
From Verif Require Import Base BaseFacts MultiIndex MultiIndexSpec MultiIndexFacts TensorSum KnotVec KnotVecSpec KnotVecFacts Basis Spaces SpacesSpec SpacesFacts
  BasisFacts BSplineTheory BasisSpec SplineEval SplineSpec EvalFacts EvalThms SplineNew KnotVecThms BasisThms IgaBasisThms IntEval IntSpec IntFacts IntEvalFacts.
Import ListNotations.
Open Scope Z_scope.

Lemma cint_inv z r : cint z = Ok r -> r = z /\ is_int z.
Proof.
  unfold cint, is_int. destruct (Z.leb_spec (- 2 ^ 31) z), (Z.ltb_spec z (2 ^ 31)); cbn; try discriminate. intros E. injection E as <-. auto.
Qed.

Lemma foldM_each {A S} (f : S -> A -> Res S) l st r : foldM f l st = Ok r -> forall a, In a l -> exists s1 s2, f s1 a = Ok s2.
Proof.
  revert st. induction l as [|b l IH]; intros st E a Ha; [destruct Ha|]. cbn [foldM] in E. apply bind_Ok in E as (st' & E1 & E). destruct Ha as [->|Ha]; eauto.
Qed.
Lemma mapM_each {A B} (f : A -> Res B) l r : mapM f l = Ok r -> forall a, In a l -> exists b, f a = Ok b.
Proof.
  revert r. induction l as [|b l IH]; intros r E a Ha; [destruct Ha|]. cbn [mapM] in E. apply bind_Ok in E as (x & E1 & E). apply bind_Ok in E as (y & E2 & E).
  destruct Ha as [->|Ha]; eauto.
Qed.
Lemma mih_for_each {St} n h (body : mih -> St -> Res St) st r : mih_for n h body st = Ok r -> forall j, (j < n)%nat ->
  exists s1 s2, body (iterate j mih_incr h) s1 = Ok s2.
Proof.
  intros E j Hj. rewrite mih_for_foldM in E. apply (foldM_each _ _ _ _ E). apply in_map_iff. exists j. split; auto. apply in_seq. lia.
Qed.

Lemma mih_for_each_inv {St} (P : St -> Prop) n (body : mih -> St -> Res St) : (forall h s1 s2, P s1 -> body h s1 = Ok s2 -> P s2) ->
  forall h st r, P st -> mih_for n h body st = Ok r -> forall j, (j < n)%nat -> exists s1 s2, P s1 /\ body (iterate j mih_incr h) s1 = Ok s2.
Proof.
  intros HP. induction n as [|n IH]; intros h st r Hst E j Hj; [lia|]. cbn [mih_for] in E. apply bind_Ok in E as (st' & E1 & E).
  destruct j as [|j]; [eauto|]. destruct (IH (mih_incr h) st' r (HP _ _ _ Hst E1) E j ltac:(lia)) as (s1 & s2 & H1 & H2). exists s1, s2. split; auto.
  cbn [iterate]. rewrite <- H2. f_equal. clear. induction j as [|j IH]; cbn [iterate]; auto. now rewrite IH.
Qed.

Lemma steps n j : (Z.of_nat j <= n)%Z -> iterate j mih_incr (mih_new [n + 1]) = mkMih [n + 1] [Z.of_nat j].
Proof.
  induction j as [|j IH]; intros Hj; [reflexivity|]. cbn [iterate]. rewrite IH by lia. unfold mih_incr. cbn [mlen mcur incr].
  destruct (Z.eqb_spec (Z.of_nat j) (n + 1 - 1)), (Z.eqb_spec (n + 1) 0); try lia. cbn [orb]. repeat f_equal. lia.
Qed.
Lemma iterate_out {A} (f : A -> A) j x : iterate j f (f x) = f (iterate j f x).
Proof. induction j as [|j IH]; cbn [iterate]; auto. now rewrite IH. Qed.

Section Any.
Context {F : NumOps}.

Lemma rational_34 fuel (s : spline F) us n idx v : 34 <= n < 2 ^ 31 - 1 -> rational_deriv_int fuel s us [n] idx <> Ok v.
Proof.
  intros Hn E. destruct fuel as [|f]; [discriminate|]. cbn [rational_deriv_int forallb] in E. destruct (Z.eqb_spec n 0); [lia|]. cbn [andb] in E.
  apply bind_Ok in E as (a & _ & E). cbn [mapM] in E. rewrite cint_ok in E by (unfold is_int; lia). cbn [bind] in E.
  rewrite length_int_ok in E; [|constructor; [lia | constructor] | cbn; lia]. cbn [bind] in E. apply bind_Ok in E as (sum & E & _).
  apply (fun E => mih_for_each _ _ _ _ _ E 16%nat) in E; [|cbn; lia]. destruct E as (s1 & s2 & E).
  rewrite iterate_out in E. change (mih_incr (iterate 16 mih_incr (mih_new [n + 1]))) with (iterate 17 mih_incr (mih_new [n + 1])) in E.
  rewrite steps in E by lia. cbn [mcur] in E. apply bind_Ok in E as (c & Ec & _). unfold binoms_int in Ec. cbn [combine foldM fst snd] in Ec.
  apply bind_Ok in Ec as (b & Eb & _). apply bind_Ok in Eb as (b' & Eb & _). rewrite binom_int_eq in Eb by lia. apply cint_inv in Eb as (_ & Hi).
  pose proof (choose_34 (Z.to_nat n) ltac:(lia)) as C. change (Z.to_nat (Z.of_nat 17)) with 17%nat in Hi. unfold is_int in Hi. lia.
Qed.

Lemma derivative_34 (s : spline F) us dims n w : consistent s -> fits s -> length (ph_npts (sp_ph s)) = 1%nat -> ph_wts (sp_ph s) = Some w -> length us = 1%nat ->
  dims <> [] -> 34 <= n < 2 ^ 31 - 1 -> forall v, evaluate_derivative_int s us dims [n] <> Ok v.
Proof.
  intros Hc Hf L1 Hw Hu Hd Hn v E. unfold evaluate_derivative_int in E. apply bind_Ok in E as (t & _ & E). apply bind_Ok in E as (fnz & _ & E).
  destruct (lens_ok s Hc Hf) as (El & Hp & Ht). rewrite El in E. cbn [bind] in E. unfold mih_loop_int in E. rewrite length_int_ok in E by auto. cbn [bind] in E.
  pose proof (total_pos _ Hp) as T. destruct (Z.to_nat (total (num_to_evaluate s))) as [|m] eqn:Em; [lia|]. cbn [mih_for] in E.
  apply bind_Ok in E as (st & E & _). apply bind_Ok in E as (idx & _ & E). destruct dims as [|d dims]; [congruence|]. cbn [length repeat combine] in E.
  destruct (mapM_each _ _ _ E (n0, d) (or_introl eq_refl)) as (x & Ex). apply bind_Ok in Ex as (e & Ee & _). unfold evaluated_deriv_control_point_int in Ee. rewrite Hw in Ee.
  apply bind_Ok in Ee as (r & Er & _). revert Er. now apply rational_34.
Qed.

(* what the constructor makes *)
Lemma clamped_size (kv : list F) p : check_clamped kv p = Ok tt -> 2 * p + 2 <= zlen kv.
Proof. unfold check_clamped. destruct (Z.ltb_spec (zlen kv) (2 * p + 2)); [discriminate|]. auto. Qed.

Lemma new_consistent knots degs cps wts (s : spline F) : spline_new knots degs cps wts = Ok s -> length knots = length degs -> Forall (fun p => 0 <= p) degs ->
  nth 0 cps [] <> [] -> consistent s.
Proof.
  unfold spline_new, ps_new. intros E Hl Hp Hd. apply bind_Ok in E as (ps & E1 & E). apply bind_Ok in E as (ph & E2 & E). injection E as <-.
  apply bind_Ok in E1 as (t & C & E1). apply bind_Ok in E1 as (b & Eb & E1). injection E1 as <-.
  set (npts := map (fun kp : list F * Z => zlen (fst kp) - snd kp - 1) (combine knots degs)) in *.
  assert (Hph : ph_npts ph = npts /\ 1 <= ph_dim ph).
  { assert (P : forall p, phys_new cps npts = Ok p -> ph_npts p = npts /\ 1 <= ph_dim p).
    { unfold phys_new. intros p E. apply bind_Ok in E as (c0 & Ec & E). destruct (negb _); [discriminate|]. apply bind_Ok in E as (fl & _ & E). injection E as <-. cbn. split; auto.
      destruct cps as [|c cps]; [discriminate|]. cbn in Ec. injection Ec as <-. cbn in Hd. destruct c; [congruence|]. unfold zlen. cbn [length]. lia. }
    destruct wts as [w|]; [|auto]. unfold wphys_new in E2. apply bind_Ok in E2 as (p & Ep & E2). destruct (_ =? _); [|discriminate]. injection E2 as <-. cbn. auto. }
  destruct Hph as (Hn & Hdim). unfold consistent. cbn [sp_ps sp_ph ps_degs ps_bfs ps_knots]. rewrite Hn. unfold npts. clear - C Eb Hl Hp Hdim.
  assert (G : Forall2 (fun q n => 0 <= q < n) degs (map (fun kp : list F * Z => zlen (fst kp) - snd kp - 1) (combine knots degs)) /\
              Forall2 (fun fs n => zlen fs = n) b (map (fun kp : list F * Z => zlen (fst kp) - snd kp - 1) (combine knots degs)) /\
              length knots = length (map (fun kp : list F * Z => zlen (fst kp) - snd kp - 1) (combine knots degs))).
  { revert degs b t C Eb Hl Hp. unfold create_bases. induction knots as [|kv knots IH]; intros [|q degs] b t C Eb Hl Hp; cbn [length] in Hl; try lia.
    - cbn in Eb. injection Eb as <-. repeat split; constructor.
    - inversion Hp as [|? ? P1 P2]; subst. cbn [combine foldM mapM fst snd] in C, Eb. apply bind_Ok in C as ([] & C1 & C). apply bind_Ok in Eb as (fs & Ef & Eb). apply bind_Ok in Eb as (fss & Efs & Eb).
      injection Eb as <-. destruct (IH degs fss t C Efs ltac:(lia) P2) as (A1 & A2 & A3). pose proof (clamped_size kv q C1) as Hs. cbn [combine map fst snd length].
      assert (Lf : zlen fs = zlen kv - q - 1).
      { unfold create_all in Ef. destruct (_ <? 0); [discriminate|]. apply mapM_length in Ef. unfold zlen at 1. rewrite Ef.
        assert (LZ : forall n lo, length (zseq lo n) = n) by (induction n; intros; cbn; auto). rewrite LZ. lia. }
      repeat split; [constructor; auto; lia | constructor; auto | lia]. }
  tauto.
Qed.
End Any.

(* a sum that needs an index which is no int *)
Lemma wide_parts (D : Z) dz : 1 <= D -> exists s : spline (Rops dz),
  spline_new (F := Rops dz) [[0; 0; 0; 1; 1; 1]%R] [2] (repeat (repeat 0%R (Z.to_nat D)) 3) None = Ok s /\ well_formed s /\ ph_dim (sp_ph s) = D /\ npts_of s = [3] /\
  knots_of s = [[0; 0; 0; 1; 1; 1]%R] /\ degs_of s = [2] /\ is_bspline s.
Proof.
  intros HD.
  assert (G : Forall2 good_direction [[0; 0; 0; 1; 1; 1]%R] [2]).
  { constructor; [|constructor]. split; [lia|]. split; [split; [cbn; lia|]; intros [|[|[|j]]] Hj; try lia; cbn; auto|]. split; [nondec|]. split; [sepsolve | cbn; lra]. }
  set (c := repeat 0%R (Z.to_nat D)). assert (Lc : zlen c = D) by (unfold zlen, c; rewrite repeat_length; lia). clearbody c.
  destruct (spline_new_ok dz [[0; 0; 0; 1; 1; 1]%R] [2] (repeat c 3) None D G) as (E & W).
  - exact HD.
  - cbn [repeat]. repeat constructor; exact Lc.
  - reflexivity.
  - cbn. lia.
  - intros w Ew. discriminate.
  - eexists. split; [exact E|]. split; [exact W|]. repeat split; reflexivity.
Qed.

Lemma wide_overflow dz : exists (s : spline (Rops dz)) v, (exists knots degs cps, spline_new knots degs cps None = Ok s) /\ well_formed s /\ consistent s /\ in_domain s [1/2]%R /\ valid_dims s [0] /\
  evaluate s [1/2]%R [0] = Ok v /\ forall v', evaluate_int s [1/2]%R [0] <> Ok v'.
Proof.
  destruct (wide_parts (2 ^ 30) dz ltac:(lia)) as (s & En & Hwf & HD & HN & HK & HG & Hb).
  assert (Hdom : in_domain s [1/2]%R) by (unfold in_domain; rewrite HK; constructor; [unfold first_knot, final_knot; cbn; lra | constructor]).
  assert (Hv : valid_dims s [0]) by (constructor; [rewrite HD; lia | constructor]).
  assert (Hcons : consistent s).
  { apply (new_consistent _ _ _ _ _ En); [reflexivity | repeat constructor; lia |]. cbn [repeat nth]. destruct (Z.to_nat (2 ^ 30)) eqn:E; [lia|]. discriminate. }
  destruct (proj1 (eval_safe dz s [1/2]%R [0] [0] Hwf ltac:(now rewrite HK) Hv ltac:(now rewrite HG) ltac:(repeat constructor; lia)) Hdom) as ((v & Ev & _) & _).
  exists s, v. split; [eauto|]. split; [exact Hwf|]. split; [exact Hcons|]. split; [exact Hdom|]. split; [exact Hv|]. split; [exact Ev|].
  intros v' E. unfold evaluate_int in E. apply bind_Ok in E as (t & _ & E). apply bind_Ok in E as (fnz & Ef & E). apply bind_Ok in E as (lens & El & E).
  assert (Hspan : knot_span (F := Rops dz) [0; 0; 0; 1; 1; 1]%R (1/2)%R = Ok 2).
  { destruct (knot_span_in_span dz [0; 0; 0; 1; 1; 1]%R (1/2)%R) as (k & Ek & Hk); [nondec | sepsolve | cbn; lra | cbn; lra |].
    rewrite Ek. f_equal. apply (in_span_unique [0; 0; 0; 1; 1; 1]%R k 2 (1/2)%R); [nondec | exact Hk |]. unfold in_span. rewrite !tk_knot' by (cbn; lia). unfold knot, final_knot.
    change (Z.to_nat 2) with 2%nat. change (Z.to_nat (2 + 1)) with 3%nat. cbn. split; [lia|]. split; [lia|]. split; [lra|]. split; [lra|]. left. lra. }
  unfold first_non_zero_int in Ef. change (ps_knots (sp_ps s)) with (knots_of s) in Ef. change (ps_degs (sp_ps s)) with (degs_of s) in Ef. rewrite HK, HG in Ef.
  cbn [combine mapM fst snd] in Ef. rewrite Hspan in Ef. cbn [bind] in Ef. change (cint (i32 2 - 2)) with (Ok 0) in Ef. cbn [bind] in Ef. injection Ef as <-.
  unfold num_to_evaluate_int in El. change (ps_degs (sp_ps s)) with (degs_of s) in El. rewrite HG in El. cbn in El. injection El as <-.
  unfold mih_loop_int in E. change (length_int [3]) with (Ok 3) in E. cbn [bind] in E.
  match type of E with mih_for _ _ ?body _ = _ =>
    assert (Inv : forall h s1 s2, length s1 = 1%nat -> body h s1 = Ok s2 -> length s2 = 1%nat)
  end.
  { intros h s1 s2 H1 H2. apply bind_Ok in H2 as (ix & _ & H2). apply mapM_length in H2. rewrite H2, combine_length, H1. reflexivity. }
  destruct (mih_for_each_inv (fun st => length st = 1%nat) _ _ Inv _ (repeat n0 1) _ eq_refl E 2%nat ltac:(cbn; lia)) as (s1 & s2 & H1 & E'). clear E. rename E' into E.
  change (iterate 2 mih_incr (mih_new [3])) with (mkMih [3] [2]) in E. cbn [mcur] in E. change (add_int [2] [0]) with (Ok [2]) in E. cbn [bind] in E.
  destruct s1 as [|x s1]; [discriminate|]. cbn [combine] in E.
  destruct (mapM_each _ _ _ E (x, 0) (or_introl eq_refl)) as (y & Ey). apply bind_Ok in Ey as (e & Ee & _). unfold evaluated_control_point_int in Ee.
  apply bind_Ok in Ee as (b & _ & Ee). rewrite Hb in Ee. apply bind_Ok in Ee as (c & Ec & _). unfold cp_value_int, get_control_point_int in Ec.
  change (ph_npts (sp_ph s)) with (npts_of s) in Ec. rewrite HN, HD in Ec. apply bind_Ok in Ec as (p & Ep & _).
  change (get1d_int [3] [2]) with (Ok 2) in Ep. cbn [bind] in Ep. apply bind_Ok in Ep as (q & Eq & _). apply cint_inv in Eq as (_ & Eq). unfold is_int in Eq. lia.
Qed.

Lemma index_int lens idx : in_box lens idx -> total lens <= 2 ^ 31 -> get1d_int lens idx = Ok (get1d lens idx) /\ 0 <= get1d lens idx < 2 ^ 31.
Proof. intros H T. pose proof (get1d_range _ _ H). split; [apply get1d_int_ok; auto; lia | lia]. Qed.

Lemma length_int_iff lens : pos_lens lens -> (total lens < 2 ^ 31 -> length_int lens = Ok (total lens)) /\ (2 ^ 31 <= total lens -> length_int lens = UB).
Proof. intros H. split; [now apply length_int_ok | now apply length_int_ub]. Qed.

Lemma binom_int_iff n k : (k <= n)%nat -> (choose n k < 2 ^ 31 -> binom_int n k = Ok (choose n k)) /\ (2 ^ 31 <= choose n k -> binom_int n k = UB).
Proof.
  intros H. rewrite binom_int_eq by auto. pose proof (choose_pos n k H). split; intros Hc; [apply cint_ok | apply cint_ub]; unfold is_int; lia.
Qed.

Lemma ex_sizes : pos_lens [46340; 46340] /\ total [46340; 46340] < 2 ^ 31 /\ in_box [46340; 46340] [46339; 46339] /\ 2 ^ 31 <= total [46341; 46341] /\ pos_lens [46341; 46341].
Proof. repeat split; try (repeat constructor; lia); cbv; congruence. Qed.

Lemma ex_int : consistent (ex_rational (dz := fun x => x)) /\ fits (ex_rational (dz := fun x => x)) /\
  length (ph_npts (sp_ph (ex_rational (dz := fun x => x)))) = 1%nat /\ ph_wts (sp_ph (ex_rational (dz := fun x => x))) = Some [1; 2]%R /\
  exists v, evaluate_derivative (F := Rops (fun x => x)) ex_rational [1/2]%R [0] [34] = Ok v.
Proof.
  destruct (ex_rational_ok (fun x => x)) as (E & Hwf).
  split; [apply (new_consistent _ _ _ _ _ E); [reflexivity | repeat constructor; lia | discriminate]|].
  split; [split; [constructor; [cbv; split; congruence | constructor] | cbv; split; congruence]|]. split; [reflexivity|]. split; [reflexivity|].
  destruct (proj1 (eval_safe (fun x => x) ex_rational [1/2]%R [0] [34] Hwf eq_refl ltac:(repeat constructor; cbn; lia) eq_refl ltac:(repeat constructor; lia))) as (_ & v & Ev & _); [|eauto].
  constructor; [unfold first_knot, final_knot; cbn; lra | constructor].
Qed.
