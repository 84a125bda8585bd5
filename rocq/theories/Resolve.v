(* The cells of a VTK file follow the spline. *)
From Coq Require Import ZArith List Bool Lia Reals Lra.
From Verif Require Import Base BaseFacts RSum MultiIndex MultiIndexSpec MultiIndexFacts KnotVec KnotVecSpec KnotVecFacts Spaces SpacesSpec SplineEval SplineSpec EvalFacts EvalThms
  UniqueFacts Convert Vtk VtkSpec VtkFacts VtkThms MonotoneSpec Monotone SteepSpec Steep ResolveSpec.
Import ListNotations.
Open Scope Z_scope.

Lemma part_of (a h u : R) : forall m : nat, (a <= u)%R -> (u <= a + INR (S m) * h)%R -> exists i, 0 <= i < Z.of_nat (S m) /\ (a + IZR i * h <= u <= a + (IZR i + 1) * h)%R.
Proof.
  induction m as [|m IH]; intros H1 H2.
  - exists 0. cbn [INR] in H2. split; [lia | lra].
  - destruct (Rle_dec u (a + INR (S m) * h)) as [L|L].
    + destruct (IH H1 L) as (i & Hi & Hu). exists i. split; [lia | exact Hu].
    + exists (Z.of_nat (S m)). rewrite <- INR_IZR_INZ. split; [lia|]. rewrite (S_INR (S m)) in H2. lra.
Qed.

Lemma cell_of : forall knots sc us, Forall2 (fun kv u => (first_knot kv <= u <= final_knot kv)%R) knots us -> length sc = length knots -> Forall (fun n => 1 <= n) sc ->
  exists c, in_box sc c /\ forall e, length e = length knots -> Forall (fun x => x = 0 \/ x = 1) e ->
    Forall2 (fun kv u => (first_knot kv <= u <= final_knot kv)%R) knots (parameters knots sc (map2 Z.add c e)) /\
    forall d, (d < length knots)%nat -> (Rabs (nth d (parameters knots sc (map2 Z.add c e)) 0 - nth d us 0) <= cell_length knots sc d)%R.
Proof.
  intros knots sc us H. revert sc. induction H as [|kv u knots us Hu H IH]; intros [|n sc] Hl Hn; cbn in Hl; try discriminate.
  - exists []. split; [constructor|]. intros [|x e] He _; cbn in He; [|lia]. split; [constructor | cbn; intros; lia].
  - inversion Hn as [|? ? Hn1 Hn2]; subst. destruct (IH sc ltac:(lia) Hn2) as (c & Hc & HE).
    set (h := ((final_knot kv - first_knot kv) / IZR n)%R).
    assert (Pn : (0 < IZR n)%R) by (apply IZR_lt; lia).
    assert (Hh : (0 <= h)%R) by (unfold h; apply Rmult_le_pos; [lra | left; now apply Rinv_0_lt_compat]).
    assert (Eh : (IZR n * h = final_knot kv - first_knot kv)%R) by (unfold h; field; lra).
    destruct (part_of (first_knot kv) h u (Z.to_nat (n - 1))) as (i & Hi & Ri); [lra | rewrite INR_IZR_INZ; replace (Z.of_nat (S (Z.to_nat (n - 1)))) with n by lia; lra |].
    exists (i :: c). split; [constructor; [lia | exact Hc]|].
    intros [|x e] He Hx; cbn in He; [lia|]. inversion Hx as [|? ? Hx1 Hx2]; subst. destruct (HE e ltac:(lia) Hx2) as (D1 & D2).
    cbn [map2 parameters]. fold h.
    assert (V : (first_knot kv <= first_knot kv + IZR (i + x) * h <= final_knot kv /\ Rabs (first_knot kv + IZR (i + x) * h - u) <= h)%R).
    { assert (IZR i + 1 <= IZR n)%R by (rewrite <- plus_IZR; apply IZR_le; lia). assert (0 <= IZR i)%R by (apply IZR_le; lia).
      assert ((IZR i + 1) * h <= IZR n * h)%R by (apply Rmult_le_compat_r; lra). assert (0 <= IZR i * h)%R by (apply Rmult_le_pos; lra).
      destruct Hx1 as [->| ->].
      - rewrite Z.add_0_r. split; [lra|]. apply Rabs_le. lra.
      - rewrite plus_IZR. split; [lra|]. apply Rabs_le. lra. }
    split; [constructor; [apply V | exact D1]|]. intros [|d] Hd; [exact (proj2 V)|]. cbn [nth]. unfold cell_length. cbn [nth]. apply D2. cbn in Hd. lia.
Qed.

Lemma corner_bits n e : (1 <= n <= 3)%nat -> In e (corners n) -> length e = n /\ Forall (fun x => x = 0 \/ x = 1) e.
Proof.
  intros Hn He. assert (D : n = 1%nat \/ n = 2%nat \/ n = 3%nat) by lia. destruct D as [->|[->| ->]]; cbn in He;
    repeat (destruct He as [<-|He]; [split; [reflexivity | repeat constructor; lia]|]); contradiction.
Qed.

Section Dz.
Context {dz : R -> R}.

Theorem cells_follow (pre : list (@job dz)) j post us (Ks : Z -> list R) : Forall good_job (pre ++ j :: post) ->
  is_bspline (content j) -> Forall (fun p => 1 <= p) (degs_of (content j)) -> in_domain (content j) us ->
  (forall c, Forall (fun K => 0 <= K)%R (Ks c)) ->
  (forall c d, 0 <= c < ph_dim (sp_ph (content j)) -> (d < length us)%nat -> polygon_within (content j) d c (nth d (Ks c) 0%R)) ->
  exists f n line, write_vtk (F := Rops dz) (map object (pre ++ j :: post)) (map divisions (pre ++ j :: post)) = Ok f /\
    zlen (all_cells 0 (map divisions pre)) <= n < zlen (all_cells 0 (map divisions pre)) + size (divisions j) /\
    nth_error (vf_cells f) (Z.to_nat n) = Some line /\ zlen (tl line) = hd 0 line /\
    Forall (fun r => exists pt, nth_error (vf_rows f) (Z.to_nat r) = Some pt /\
      forall c, 0 <= c < 3 -> c < ph_dim (sp_ph (content j)) -> exists x, evaluate (content j) us [c] = Ok [x] /\
        (Rabs (nth (Z.to_nat c) pt 0 - x) <= lsum (fun d => nth d (Ks c) 0 * cell_length (knots_of (content j)) (divisions j) d) (seq 0 (length us)))%R) (tl line).
Proof.
  intros HJ Hb HD Hu HK HP. assert (Gj : good_job j) by (rewrite Forall_forall in HJ; apply HJ; apply in_or_app; right; now left).
  destruct Gj as [_ W Hdim (Hl & Hn)]. pose proof (f2_len (wf_directions _ W)) as L1. pose proof (f2_len Hu) as L2.
  destruct (cell_of (knots_of (content j)) (divisions j) us Hu ltac:(congruence) Hn) as (cl & Hcl & HE).
  destruct (vtk_cell pre j post cl HJ Hcl) as (f & Ef & line & En & Eh & HF).
  exists f, (zlen (all_cells 0 (map divisions pre)) + position (divisions j) cl), line. split; [exact Ef|].
  split; [pose proof (position_range _ _ Hcl) as PR; change (total (divisions j)) with (size (divisions j)) in PR; lia|].
  split; [exact En|]. split; [now symmetry|].
  assert (G : forall (A B' : Type) (Q : A -> B' -> Prop) (S' : B' -> Prop) l1 l2, Forall2 Q l1 l2 -> (forall a b, In a l1 -> Q a b -> S' b) -> Forall S' l2).
  { clear. intros A B' Q S' l1 l2 H. induction H as [|a b l1 l2 Hab H IH]; intros HS; constructor; [apply (HS a b); [now left | exact Hab] | apply IH; intros; eapply HS; eauto; now right]. }
  apply (G _ _ _ _ _ _ HF). clear G HF. intros e r He (Er & _). rewrite Hl in He. destruct (corner_bits _ _ Hdim He) as (Le & Be).
  destruct (HE e ltac:(congruence) Be) as (Dv & Cv). eexists. split; [exact Er|]. intros c Hc Hcd.
  set (vs := parameters (knots_of (content j)) (divisions j) (map2 Z.add cl e)) in *.
  destruct (all_directions dz (content j) us vs c (Ks c) W Hb Hu Dv HD ltac:(lia)) as (x & y & E1 & E2 & Hxy); [intros d Hd; apply HP; [lia | exact Hd]|].
  exists x. split; [exact E1|].
  assert (Ey : nth (Z.to_nat c) (row (content j) (divisions j) (map2 Z.add cl e)) 0%R = y).
  { unfold row. fold vs. rewrite (eval_quotient dz) in E2; auto; [|repeat constructor; lia|now apply weights_nonzero; auto].
    cbn [map] in E2. injection E2 as <-.
    assert (Hg : forall g : Z -> R, nth (Z.to_nat c) (map g [0; 1; 2]) 0%R = g c).
    { intros g. assert (D : c = 0 \/ c = 1 \/ c = 2) by lia. destruct D as [->|[->| ->]]; reflexivity. }
    rewrite Hg. replace (c <? ph_dim (sp_ph (content j))) with true by (symmetry; apply Z.ltb_lt; lia). reflexivity. }
  match goal with |- (Rabs (?a - _) <= _)%R => change a with (nth (Z.to_nat c) (row (content j) (divisions j) (map2 Z.add cl e)) 0%R) end.
  rewrite Ey. eapply Rle_trans; [exact Hxy|]. apply lsum_le. intros d Hd. apply in_seq in Hd. apply Rmult_le_compat_l; [|apply Cv; lia].
  destruct (lt_dec d (length (Ks c))) as [L|L]; [|rewrite nth_overflow by lia; lra].
  specialize (HK c). rewrite Forall_forall in HK. apply HK. now apply nth_In.
Qed.
End Dz.
