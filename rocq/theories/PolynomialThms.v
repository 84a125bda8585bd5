(* Linear precision, the converse, and concrete cases. *)
From Coq Require Import ZArith List Bool Lia Reals Lra.
From Verif Require Import Base BaseFacts RSum MultiIndex MultiIndexSpec MultiIndexFacts
  KnotVec KnotVecSpec KnotVecFacts KnotVecThms Basis BasisSpec BSplineTheory BasisFacts BasisThms
  Spaces SpacesSpec SpacesFacts SpacesThms SplineEval SplineSpec SplineNew EvalFacts EvalThms VtkSpec VtkFacts GeneratorsFacts VariationFacts VariationThms
  UniqueSpec UniqueFacts UniqueThms PolynomialSpec PolynomialFacts.
Import ListNotations.
Open Scope R_scope.

Lemma symmetric_1 l : symmetric 1 l = lsum (fun x => x) l.
Proof. induction l as [|x l IH]; cbn [symmetric lsum]; [reflexivity|]. rewrite IH, symmetric_0. ring. Qed.

Lemma C_1 n : (1 <= n)%nat -> C n 1 = INR n.
Proof.
  intros H. destruct n as [|n]; [lia|]. unfold C. replace (S n - 1)%nat with n by lia. rewrite fact_simpl, mult_INR.
  change (INR (fact 1)) with 1. field. apply INR_fact_neq_0.
Qed.

Lemma dual_zero knots degs idx n : (length degs <= n)%nat -> dual_monomial knots degs idx (repeat 0%nat n) = 1.
Proof.
  revert degs idx n. induction knots as [|kv knots IH]; intros [|p degs] [|i idx] [|n] H; cbn [repeat dual_monomial length] in *; auto; try lia.
  rewrite symmetric_0, C_0, IH by lia. field.
Qed.

Lemma monomial_zero us n : monomial us (repeat 0%nat n) = 1.
Proof. revert n. induction us as [|u us IH]; intros [|n]; cbn [repeat monomial pow]; auto. rewrite IH. ring. Qed.

Definition unit_power (n d : nat) : list nat := upd (repeat 0%nat n) d 1%nat.

Lemma dual_unit knots degs idx d n : length knots = n -> length degs = n -> length idx = n -> (d < n)%nat -> Forall (fun p => 1 <= p)%Z degs ->
  dual_monomial knots degs idx (unit_power n d) = greville (nth d knots []) (nth d degs 0%Z) (nth d idx 0%Z).
Proof.
  unfold unit_power. revert knots degs idx n. induction d as [|d IH]; intros [|kv knots] [|p degs] [|i idx] [|n] H1 H2 H3 H4 H5;
    cbn [length] in *; try lia; inversion H5; subst; cbn [repeat upd dual_monomial nth].
  - rewrite symmetric_1, dual_zero, C_1 by lia. unfold greville. rewrite Rmult_1_r. f_equal. rewrite INR_IZR_INZ. f_equal. lia.
  - rewrite symmetric_0, C_0, IH by (auto; lia). field.
Qed.

Lemma monomial_unit us d n : length us = n -> (d < n)%nat -> monomial us (unit_power n d) = nth d us 0.
Proof.
  unfold unit_power. revert us n. induction d as [|d IH]; intros [|u us] [|n] H1 H2; cbn [length] in *; try lia; cbn [repeat upd monomial nth].
  - rewrite monomial_zero. ring.
  - rewrite IH by lia. cbn [pow]. ring.
Qed.

Lemma unit_power_degrees d degs : Forall (fun p => 1 <= p)%Z degs -> Forall2 (fun m p => (m <= Z.to_nat p)%nat) (unit_power (length degs) d) degs.
Proof.
  unfold unit_power. intros H. revert d. induction H as [|p degs H1 H IH]; intros d; cbn [length repeat]; [destruct d; constructor|].
  destruct d as [|d]; cbn [upd]; constructor; try lia; auto.
  clear. induction degs; cbn; constructor; auto; lia.
Qed.
Lemma zero_degrees degs : Forall2 (fun m p => (m <= Z.to_nat p)%nat) (repeat 0%nat (length degs)) degs.
Proof. induction degs; cbn; constructor; auto; lia. Qed.

(* b + sum of a_d * x_d *)
Definition affine_terms (n : nat) (a : nat -> R) (b : R) : list (R * list nat) :=
  (b, repeat 0%nat n) :: map (fun d => (a d, unit_power n d)) (seq 0 n).

Section Dz.
Variable dz : R -> R.
Local Notation F := (Rops dz).
Implicit Types s : spline F.

Lemma linear_precision : forall s (A : Z -> nat -> R) (b : Z -> R), well_formed s -> is_bspline s -> Forall (fun p => 1 <= p)%Z (degs_of s) ->
  (forall idx c, in_box (npts_of s) idx -> (0 <= c < ph_dim (sp_ph s))%Z ->
     coordinate s idx c = b c + lsum (fun d => A c d * greville (nth d (knots_of s) []) (nth d (degs_of s) 0%Z) (nth d idx 0%Z)) (seq 0 (length (degs_of s)))) ->
  forall us dims, in_domain s us -> valid_dims s dims ->
  evaluate s us dims = Ok (map (fun c => b c + lsum (fun d => A c d * nth d us 0) (seq 0 (length (degs_of s)))) dims).
Proof.
  intros s A b Hwf Hb Hp Hc us dims Hu Hd. pose proof Hwf as [G _ N _ _ _].
  assert (Lk : length (knots_of s) = length (degs_of s)) by (eapply RationalDeriv.Forall2_len; exact G).
  assert (Lu : length us = length (degs_of s)) by (rewrite <- Lk; symmetry; eapply RationalDeriv.Forall2_len; exact Hu).
  rewrite (polynomial_spline dz s (fun c => affine_terms (length (degs_of s)) (A c) (b c))); auto.
  - f_equal. apply map_ext. intros c. unfold poly, affine_terms. cbn [lsum fst snd]. rewrite monomial_zero, lsum_map. f_equal; [ring|].
    apply lsum_ext. intros d Hi. apply in_seq in Hi. cbn [fst snd]. rewrite monomial_unit by (auto; lia). reflexivity.
  - intros c Hcd. split.
    + unfold of_degrees, affine_terms. constructor; [apply zero_degrees|]. apply Forall_forall. intros t Ht.
      apply in_map_iff in Ht. destruct Ht as (d & <- & _). now apply unit_power_degrees.
    + intros idx Hi. rewrite Hc by auto. unfold dual_poly, affine_terms. cbn [lsum fst snd]. rewrite dual_zero, lsum_map by lia. f_equal; [ring|].
      assert (Li : length idx = length (degs_of s)).
      { rewrite <- (RationalDeriv.Forall2_len _ _ _ Hi), N. clear - G. induction G; cbn; auto. }
      apply lsum_ext. intros d Hdd. apply in_seq in Hdd. cbn [fst snd]. rewrite dual_unit by (auto; lia). reflexivity.
Qed.

(* the converse, element by element *)
Lemma polynomial_points : forall s ks c terms, well_formed s -> is_bspline s -> (0 <= c < ph_dim (sp_ph s))%Z ->
  of_degrees (degs_of s) terms -> (exists us, inside_spans (knots_of s) ks us) ->
  (forall us, inside_spans (knots_of s) ks us -> evaluate s us [c] = Ok [poly terms us]) ->
  forall idx, used_there (degs_of s) ks idx -> coordinate s idx c = dual_poly (knots_of s) (degs_of s) terms idx.
Proof.
  intros s ks c terms Hwf Hb Hc Ht Hex Hev idx Hused. pose proof Hwf as [G W N D Cp _].
  assert (Hbox : in_box (npts_of s) idx) by (rewrite N; eapply used_in_box; eauto).
  assert (Hnn : Forall (fun l => 0 <= l)%Z (npts_of s)).
  { pose proof (good_npts_pos _ _ G) as Hp. rewrite N. eapply Forall_impl; [|exact Hp]. cbv beta. intros; lia. }
  set (f := fun idx => map (fun _ : Z => dual_poly (knots_of s) (degs_of s) terms idx) (zseq 0 (Z.to_nat (ph_dim (sp_ph s))))).
  assert (Hf : forall idx, zlen (f idx) = ph_dim (sp_ph s)) by (intros; unfold f, zlen; rewrite map_length, zseq_length; lia).
  assert (Hff : Forall (fun cp => zlen cp = ph_dim (sp_ph s)) (map f (grid (npts_of s)))).
  { apply Forall_forall. intros x Hx. apply in_map_iff in Hx. destruct Hx as (i & <- & _). apply Hf. }
  set (s' := mkSpline (F := F) (sp_ps s) (mkPhys (F := F) (ph_dim (sp_ph s)) (npts_of s) (concat (map f (grid (npts_of s)))) None)).
  assert (Hl : zlen (map f (grid (npts_of s))) = total (npts_of s)).
  { unfold zlen. rewrite map_length, grid_length by auto. change (size (npts_of s)) with (total (npts_of s)).
    pose proof (total_pos _ (good_npts_pos _ _ G)) as Hp. rewrite <- N in Hp. lia. }
  assert (Hwf' : well_formed s').
  { constructor; auto.
    - change (zlen (concat (map f (grid (npts_of s)))) = ph_dim (sp_ph s) * total (npts_of s))%Z. rewrite (concat_zlen _ (ph_dim (sp_ph s))) by auto. now rewrite Hl.
    - discriminate. }
  assert (Hco : forall i, in_box (npts_of s) i -> forall e, (0 <= e < ph_dim (sp_ph s))%Z -> coordinate s' i e = dual_poly (knots_of s) (degs_of s) terms i).
  { intros i Hi e He. transitivity (nth (Z.to_nat e) (f i) 0); [|unfold f; rewrite nth_map_zseq by lia; reflexivity].
    apply (grid_points f (npts_of s) (ph_dim (sp_ph s)) i e); auto. }
  rewrite <- (Hco idx Hbox c Hc). symmetry.
  apply (local_points dz s s' ks c); auto.
  intros us Hu. rewrite Hev by auto.
  assert (Hin : in_domain s us) by (eapply inside_in_domain; eauto).
  rewrite (polynomial_spline dz s' (fun _ => terms)); auto.
  - reflexivity.
  - constructor; auto.
Qed.
End Dz.

Local Notation dz0 := (fun x : R => x).
Definition pol_points : list (list R) := [[0; 1]; [0; 2]; [0; 4]; [0; 5]; [0; 1]; [0; 2]; [2; 4]; [4; 5]].
Definition pol_terms (c : Z) : list (R * list nat) := if (c =? 0)%Z then [(1, [2; 1]%nat)] else [(1, [0; 0]%nat); (2, [1; 0]%nat)].
Definition lin_points : list (list R) := [[0; 3]; [1/2; 5/2]; [3/2; 3/2]; [2; 1]; [0; 5]; [1/2; 9/2]; [3/2; 7/2]; [2; 3]].

(* a quarter of the unit circle *)
Definition arc_knots : list (list R) := [[0; 0; 0; 1; 1; 1]].
Definition arc_points : list (list R) := [[1; 0]; [1; 1]; [0; 1]].
Definition arc_terms (c : Z) : list (R * list nat) := if (c =? 0)%Z then [(1, [0]%nat); (-1, [2]%nat)] else [(2, [1]%nat)].

Lemma box42 (idx : list Z) : in_box [4; 2]%Z idx -> exists i j, idx = [i; j] /\ (i = 0 \/ i = 1 \/ i = 2 \/ i = 3)%Z /\ (j = 0 \/ j = 1)%Z.
Proof.
  intros H. inversion H as [|? i ? ? H1 H2]; subst. inversion H2 as [|? j ? ? H3 H4]; subst. inversion H4; subst.
  exists i, j. split; [reflexivity|]. lia.
Qed.

Ltac knots_now := unfold dual_poly, greville, coordinate, pol_terms, inner_knots, knot;
  cbv [Z.eqb Z.to_nat Pos.to_nat Pos.iter_op Pos.eqb nth position ex_knots ex_degs ex_points pol_points lin_points arc_knots arc_points arc_terms concat app map seq lsum fst snd dual_monomial symmetric Init.Nat.add C fact Nat.sub INR Nat.mul Z.mul Z.add Pos.mul Pos.add Pos.succ length Nat.add Init.Nat.sub Init.Nat.mul].

Lemma ex_polynomial : exists s : spline (Rops dz0), well_formed s /\ is_bspline s /\ knots_of s = [[0; 0; 0; 1; 2; 2; 2]; [0; 0; 1; 1]] /\
  degs_of s = [2; 1]%Z /\ ph_dim (sp_ph s) = 2%Z /\
  ph_cps (sp_ph s) = [0; 1; 0; 2; 0; 4; 0; 5; 0; 1; 0; 2; 2; 4; 4; 5] /\
  (forall c, (0 <= c < 2)%Z -> of_degrees (degs_of s) (if (c =? 0)%Z then [(1, [2; 1]%nat)] else [(1, [0; 0]%nat); (2, [1; 0]%nat)]) /\
    forall idx, in_box (npts_of s) idx -> coordinate s idx c =
      dual_poly (knots_of s) (degs_of s) (if (c =? 0)%Z then [(1, [2; 1]%nat)] else [(1, [0; 0]%nat); (2, [1; 0]%nat)]) idx) /\
  in_domain s [3/2; 1/2] /\ valid_dims s [0; 1]%Z /\ poly [(1, [2; 1]%nat)] [3/2; 1/2] = 9/8.
Proof.
  destruct (spline_new_ok dz0 ex_knots ex_degs pol_points None 2 ex_good) as [H1 H2]; try lia; try reflexivity.
  { repeat constructor. } { discriminate. }
  eexists. split; [exact H2|]. split; [reflexivity|]. do 4 (split; [reflexivity|]). split.
  { intros c Hc. fold (pol_terms c). split.
    - assert (c = 0 \/ c = 1)%Z as [->| ->] by lia; unfold pol_terms; cbn; repeat constructor.
    - intros idx Hi. apply box42 in Hi. destruct Hi as (i & j & -> & Hi & Hj).
      assert (Hc2 : (c = 0 \/ c = 1)%Z) by lia.
      destruct Hc2 as [->| ->]; destruct Hi as [->|[->|[->| ->]]]; destruct Hj as [->| ->]; knots_now; cbn; field. }
  split; [constructor; [|constructor; [|constructor]]; cbn; lra|].
  split; [constructor; [|constructor; [|constructor]]; cbn; lia|].
  unfold poly. cbn. lra.
Qed.

Lemma ex_linear : exists s : spline (Rops dz0), well_formed s /\ is_bspline s /\ Forall (fun p => 1 <= p)%Z (degs_of s) /\
  knots_of s = [[0; 0; 0; 1; 2; 2; 2]; [0; 0; 1; 1]] /\ degs_of s = [2; 1]%Z /\ ph_dim (sp_ph s) = 2%Z /\
  (forall idx c, in_box (npts_of s) idx -> (0 <= c < 2)%Z ->
     coordinate s idx c = (if (c =? 0)%Z then 0 else 3) +
       lsum (fun d => (if (c =? 0)%Z then nth d [1; 0] 0 else nth d [-1; 2] 0) *
                      greville (nth d (knots_of s) []) (nth d (degs_of s) 0%Z) (nth d idx 0%Z)) (seq 0 (length (degs_of s)))) /\
  in_domain s [3/2; 1/2] /\ valid_dims s [0; 1]%Z.
Proof.
  destruct (spline_new_ok dz0 ex_knots ex_degs lin_points None 2 ex_good) as [H1 H2]; try lia; try reflexivity.
  { repeat constructor. } { discriminate. }
  eexists. split; [exact H2|]. split; [reflexivity|]. split; [repeat constructor; cbn; lia|]. do 3 (split; [reflexivity|]). split.
  { intros idx c Hi Hc. apply box42 in Hi. destruct Hi as (i & j & -> & Hi & Hj).
    assert (Hc2 : (c = 0 \/ c = 1)%Z) by lia.
    destruct Hc2 as [->| ->]; destruct Hi as [->|[->|[->| ->]]]; destruct Hj as [->| ->]; knots_now; cbn; field. }
  split; [constructor; [|constructor; [|constructor]]; cbn; lra|].
  constructor; [|constructor; [|constructor]]; cbn; lia.
Qed.

Lemma ex_converse : exists s : spline (Rops dz0), well_formed s /\ is_bspline s /\ (0 <= 0 < ph_dim (sp_ph s))%Z /\
  of_degrees (degs_of s) [(1, [2; 1]%nat)] /\ (exists us, inside_spans (knots_of s) [2; 1]%Z us) /\
  (forall us, inside_spans (knots_of s) [2; 1]%Z us -> evaluate s us [0%Z] = Ok [poly [(1, [2; 1]%nat)] us]) /\
  used_there (degs_of s) [2; 1]%Z [2; 1]%Z /\ coordinate s [2; 1]%Z 0 = 2.
Proof.
  destruct ex_polynomial as (s & H1 & H2 & H3 & H4 & H5 & H6 & H7 & _).
  assert (N : npts_of s = [4; 2]%Z) by (destruct H1 as [_ _ N _ _ _]; rewrite N, H3, H4; reflexivity).
  exists s. split; [exact H1|]. split; [exact H2|]. split; [rewrite H5; lia|]. split; [apply (H7 0%Z); lia|].
  split; [rewrite H3; exists [1/2; 1/2]; cbn [inside_spans]; unfold inside_span, zlen, knot; change (Z.to_nat 2) with 2%nat; change (Z.to_nat 1) with 1%nat; cbn [length nth Nat.add]; repeat (split; try lia; try lra)|].
  split.
  { intros us Hu. pose proof H1 as [G _ _ _ _ _].
    rewrite (polynomial_spline dz0 s (fun c => if (c =? 0)%Z then [(1, [2; 1]%nat)] else [(1, [0; 0]%nat); (2, [1; 0]%nat)])); auto.
    - rewrite H5. exact H7.
    - eapply inside_in_domain; eauto.
    - constructor; [rewrite H5; lia | constructor]. }
  split; [rewrite H4; cbn; lia|].
  unfold coordinate. rewrite H5, H6, N. reflexivity.
Qed.

Lemma arc_good : Forall2 good_direction arc_knots [2%Z].
Proof.
  constructor; [|constructor].
  split; [lia|]. split; [split; [cbn; lia|]; intros [|[|[|j]]] Hj; try lia; cbn; auto|].
  split; [nondec|]. split; [sepsolve | cbn; lra].
Qed.

Lemma box3 (idx : list Z) : in_box [3]%Z idx -> idx = [0]%Z \/ idx = [1]%Z \/ idx = [2]%Z.
Proof.
  intros H. inversion H as [|? i ? ? H1 H2]; subst. inversion H2; subst.
  assert (i = 0 \/ i = 1 \/ i = 2)%Z as [->|[->| ->]] by lia; auto.
Qed.

Lemma quarter_circle (dz : R -> R) : exists s : spline (Rops dz),
  spline_new (F := Rops dz) [[0; 0; 0; 1; 1; 1]] [2%Z] [[1; 0]; [1; 1]; [0; 1]] (Some [1; 1; 2]) = Ok s /\
  forall u, 0 <= u <= 1 ->
  evaluate s [u] [0; 1]%Z = Ok [(1 - u ^ 2) / (1 + u ^ 2); 2 * u / (1 + u ^ 2)] /\
  ((1 - u ^ 2) / (1 + u ^ 2)) ^ 2 + (2 * u / (1 + u ^ 2)) ^ 2 = 1.
Proof.
  destruct (spline_new_ok dz arc_knots [2%Z] arc_points (Some [1; 1; 2]) 2 arc_good) as [H1 H2]; try lia; try reflexivity.
  { repeat constructor. } { intros w E; injection E as <-; reflexivity. }
  eexists. split; [exact H1|]. intros u Hu. assert (Hpos : 0 < 1 + u ^ 2) by nra. split; [|field; lra].
  rewrite (rational_spline dz _ [(1, [0]%nat); (1, [2]%nat)] arc_terms); auto.
  - cbn [map]. unfold poly, arc_terms. cbn [Z.eqb lsum fst snd monomial]. f_equal. f_equal; [f_equal; ring | f_equal; f_equal; ring].
  - repeat constructor.
  - intros idx Hi. apply box3 in Hi. destruct Hi as [->|[->| ->]]; unfold weight; knots_now; cbn; field.
  - intros c Hc. change (0 <= c < 2)%Z in Hc. assert (c = 0 \/ c = 1)%Z as [->| ->] by lia.
    + split; [repeat constructor|]. intros idx Hi. apply box3 in Hi. destruct Hi as [->|[->| ->]]; unfold weight; knots_now; cbn; field.
    + split; [repeat constructor|]. intros idx Hi. apply box3 in Hi. destruct Hi as [->|[->| ->]]; unfold weight; knots_now; cbn; field.
  - constructor; [|constructor]. cbn. lra.
  - constructor; [|constructor; [|constructor]]; cbn; lia.
  - unfold poly. cbn [lsum fst snd monomial]. nra.
Qed.
