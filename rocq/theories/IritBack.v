(* Reading one spline from the words of an IRIT file. *)
From Coq Require Import ZArith Ascii String List Bool Lia Reals Lra.
From Verif Require Import Base BaseFacts MultiIndex MultiIndexSpec MultiIndexFacts TensorSum KnotVec KnotVecSpec Spaces SpacesSpec SpacesFacts SplineEval SplineSpec SplineNew EvalFacts
  StrSpec StrOps StrFacts StrNum StrDelim Convert ConvertSpec ConvertFacts VtkSpec VtkFacts Format FormatSpec FormatFacts Irit IritFacts IritRead Rebuild.
Import ListNotations.
Open Scope Z_scope.

Section Back.
Context {dz : R -> R}.
Notation F := (Rops dz).
Variable fmt : R -> str.
Variable tol : R.
Notation P := (prints fmt tol).
Notation rv := (rval (dz := dz) fmt).
Implicit Types s : spline F.

(* ---- knots ---- *)
Lemma knots_loop e : forall (kvs : list (list R)) (l : list Z) A p x B acc, List.length l = List.length kvs ->
  stands e p (A ++ concat (map (fun kv => of_string "[KV" :: closed (map fmt kv)) kvs) ++ x :: B) ->
  Forall (fun t => starts_with t (of_string "[KV") = false) A -> starts_with x bracket_open = true -> Forall (Forall P) kvs ->
  exists p', foldM (fun (st : Z * list (list R)) (_ : Z) =>
    p <- skip_to_knots (S (List.length e)) e (fst st) ;;
    r <- read_knots (F := F) (S (List.length e)) e p [] ;;
    Ok (fst r, snd st ++ [snd r])) l (p, acc) = Ok (p', acc ++ map (map rv) kvs).
Proof.
  induction kvs as [|kv kvs IH]; intros l A p x B acc Hl H HA Hx HP; (destruct l as [|i l]; [|]); cbn [List.length] in Hl; try lia.
  - exists p. cbn [foldM map]. now rewrite app_nil_r.
  - inversion HP as [|? ? HP1 HP2]; subst. cbn [foldM map concat fst snd] in *.
    assert (H0 : stands e p (A ++ of_string "[KV" :: (closed (map fmt kv) ++ concat (map (fun kv => of_string "[KV" :: closed (map fmt kv)) kvs) ++ x :: B))).
    { cbn [app] in H. now rewrite <- app_assoc in H. }
    pose proof (stands_fuel _ _ _ H0) as Hf. rewrite app_length in Hf. cbn [List.length] in Hf. rewrite app_length in Hf.
    assert (E1 := skip_ok e A p (S (List.length e)) _ H0 HA ltac:(lia)). rewrite E1. cbn [bind].
    destruct (closed_words (dz := dz) fmt tol kv HP1) as [W1 W2].
    destruct (stands_app _ _ _ _ H0) as [_ H1]. destruct (stands_cons _ _ _ _ H1) as [_ H2].
    set (q := p + zlen A + 1) in *.
    assert (X : exists y C, concat (map (fun kv => of_string "[KV" :: closed (map fmt kv)) kvs) ++ x :: B = y :: C /\ starts_with y bracket_open = true).
    { destruct kvs as [|kv' kvs]; cbn [map concat app]; eexists _, _; (split; [reflexivity|]); [exact Hx|vm_compute; reflexivity]. }
    destruct X as (y & C & EX & Hy).
    assert (H3 : stands e q (closed (map fmt kv) ++ y :: C)) by (rewrite <- EX; exact H2).
    assert (E2 := read_knots_ok (dz := dz) fmt tol e _ kv q (S (List.length e)) y C [] H3 W1 HP1 W2 Hy ltac:(lia)).
    rnorm. rewrite E2. cbn [bind fst snd app].
    destruct (stands_app _ _ _ _ H2) as [_ H4].
    destruct (IH l [] (q + zlen (closed (map fmt kv))) x B (acc ++ [map rv kv]) ltac:(lia) H4 ltac:(constructor) Hx HP2) as (p' & E).
    exists p'. rewrite E. rewrite <- app_assoc. reflexivity.
Qed.

(* ---- rows ---- *)
Definition row_nums s (idx : list Z) : list R :=
  (match ph_wts (sp_ph s) with None => [] | Some _ => [weight s idx] end) ++
  map (fun c => coordinate s idx c * weight s idx)%R (zseq 0 (Z.to_nat (ph_dim (sp_ph s)))).
Lemma row_texts_nums s idx : row_texts fmt s idx = map fmt (row_nums s idx).
Proof. unfold row_texts, row_nums. rewrite map_app, map_map. destruct (ph_wts (sp_ph s)); reflexivity. Qed.
Lemma row_nums_ok d o s idx : irit_ready fmt tol d o s -> in_box (npts_of s) idx -> row_nums s idx <> [] /\ Forall P (row_nums s idx).
Proof.
  intros [Hh Hwf Hd Hs [_ Hw Hp]] Hb. pose proof (wf_dim s Hwf) as D. split.
  - unfold row_nums. intros E. apply app_eq_nil in E. destruct E as [_ E]. apply map_eq_nil in E.
    assert (L := f_equal (@List.length Z) E). rewrite zseq_length in L. cbn in L. lia.
  - unfold row_nums. apply Forall_app. split.
    + destruct (ph_wts (sp_ph s)) as [w|] eqn:Ew; [|constructor]. constructor; [|constructor].
      unfold weight. rewrite Ew. pose proof (Hw w eq_refl) as Hw'. rewrite Forall_forall in Hw'. apply Hw'. apply nth_In.
      pose proof (wf_wts s Hwf w Ew) as El. rewrite position_get1d. pose proof (get1d_range _ _ Hb). unfold zlen in El. unfold npts_of in *. rnorm. lia.
    + rewrite Forall_map. apply Forall_forall. intros c Hc. apply zseq_In in Hc. apply Hp; [now apply all_indices_box | lia].
Qed.

Definition back_weight s (idx : list Z) : R := match ph_wts (sp_ph s) with None => 1%R | Some _ => rv (weight s idx) end.
Definition back_coord s (idx : list Z) (c : Z) : R := ndiv (n := F) (rv (coordinate s idx c * weight s idx)%R) (back_weight s idx).

Lemma opened_length ts : List.length (opened ts) = List.length ts.
Proof. unfold opened. rewrite <- (closed_length ts). destruct (closed ts); reflexivity. Qed.

(* weights of a rational spline *)
Lemma weights_loop d o s e (w0 : list R) : irit_ready fmt tol d o s -> ph_wts (sp_ph s) = Some w0 -> forall g p (done : list R) M,
  Forall (in_box (npts_of s)) g -> stands e p (concat (map (fun idx => opened (row_texts fmt s idx)) g) ++ M) ->
  exists p', foldM (fun (st : Z * list R) i =>
    t <- vget e (fst st) ;; x <- string_to_double (F := F) (trim t) ;;
    ws <- vset (snd st) i x ;;
    p' <- skip_row (S (List.length e)) e (fst st + 1) ;;
    Ok (p', ws)) (zseq (zlen done) (List.length g)) (p, done ++ repeat 1%R (List.length g)) = Ok (p', done ++ map (back_weight s) g).
Proof.
  intros H Ew. induction g as [|idx g IH]; intros p done M Hg Hs; cbn [List.length zseq foldM map repeat].
  - exists p. reflexivity.
  - inversion Hg as [|? ? Hi Hg']; subst. cbn [map concat fst snd] in *. rewrite <- app_assoc in Hs.
    destruct (row_nums_ok d o s idx H Hi) as [N1 N2]. rewrite row_texts_nums in Hs.
    pose proof (row_ok (dz := dz) fmt tol _ N1 N2) as [(l & w & EW & L1 & L2) RW _].
    assert (EN : exists x xs, row_nums s idx = x :: xs /\ x = weight s idx /\ xs <> []).
    { unfold row_nums. rewrite Ew. eexists _, _. split; [reflexivity|]. split; [reflexivity|]. intros E. apply map_eq_nil in E.
      assert (L := f_equal (@List.length Z) E). rewrite zseq_length in L. cbn in L. pose proof (wf_dim s (ir_wf _ _ _ _ _ H)). lia. }
    destruct EN as (x & xs & EN & -> & Hxs). rewrite EN in RW, N2.
    pose proof (len2 _ _ _ RW) as LR. rewrite EN in EW.
    destruct l as [|t l]; [rewrite EW in LR; cbn [app List.length] in LR; destruct xs; [congruence|cbn [List.length] in LR; lia]|].
    assert (Hs' := Hs). rewrite EN, EW in Hs'. cbn [app] in Hs'. destruct (stands_cons _ _ _ _ Hs') as [Et Hrest].
    rewrite Et. cbn [bind].
    rewrite EW in RW. cbn [app] in RW. inversion RW as [|? ? ? ? Rt _]; subst. inversion N2 as [|? ? Nx _]; subst. inversion L1 as [|? ? _ L1']; subst.
    rewrite (numword_read (dz := dz) fmt tol t _ Nx Rt). cbn [bind].
    assert (EV : vset (done ++ 1%R :: repeat 1%R (List.length g)) (zlen done) (rv (weight s idx)) = Ok ((done ++ [rv (weight s idx)]) ++ repeat 1%R (List.length g))).
    { rewrite vset_ok by (unfold zlen; rewrite app_length; cbn [List.length]; lia). f_equal.
      unfold zlen. rewrite Nat2Z.id. rewrite <- app_assoc. cbn [app]. clear. induction done as [|y done IH]; cbn [upd app List.length]; [reflexivity|now rewrite IH]. }
    rnorm. rewrite EV. cbn [bind].
    destruct (stands_app _ _ _ _ Hrest) as [Hrow Hnext].
    pose proof (stands_fuel _ _ _ Hrow) as Hf. rewrite app_length in Hf. cbn [List.length] in Hf.
    rewrite (skip_row_ok e l w (p + 1) (S (List.length e)) Hrow L1' L2 ltac:(lia)). cbn [bind].
    destruct (IH (p + 1 + zlen l + 1) (done ++ [rv (weight s idx)]) M Hg') as (p' & E).
    { replace (p + 1 + zlen l + 1) with (p + 1 + zlen (l ++ [w])) by (unfold zlen; rewrite app_length; cbn [List.length]; lia). exact Hnext. }
    exists p'. replace (zlen done + 1) with (zlen (done ++ [rv (weight s idx)])) by (unfold zlen; rewrite app_length; cbn [List.length]; lia).
    rnorm. rewrite E. rewrite <- app_assoc. cbn [app]. unfold back_weight at 2. now rewrite Ew.
Qed.

(* control points *)
Lemma points_loop d o s e (ws : list R) : irit_ready fmt tol d o s -> forall g k p (acc : list (list R)) M,
  Forall (in_box (npts_of s)) g -> stands e p (concat (map (fun idx => opened (row_texts fmt s idx)) g) ++ M) ->
  0 <= k -> (forall i, (i < List.length g)%nat -> vget ws (k + Z.of_nat i) = Ok (back_weight s (nth i g []))) ->
  exists p', foldM (fun (st : Z * list (list R)) i =>
    w <- vget ws i ;;
    r <- read_row (F := F) (S (List.length e)) e (fst st) w [] ;;
    Ok (fst r, snd st ++ [if is_nurbs s then skipn 1 (snd r) else snd r])) (zseq k (List.length g)) (p, acc)
    = Ok (p', acc ++ map (new_row (dz := dz) (back_coord s) s (ph_dim (sp_ph s))) g).
Proof.
  intros H. induction g as [|idx g IH]; intros k p acc M Hg Hs Hk Hw; cbn [List.length zseq foldM map].
  - exists p. now rewrite app_nil_r.
  - inversion Hg as [|? ? Hi Hg']; subst. cbn [map concat fst snd] in *. rewrite <- app_assoc in Hs.
    destruct (row_nums_ok d o s idx H Hi) as [N1 N2]. rewrite row_texts_nums in Hs.
    pose proof (row_ok (dz := dz) fmt tol _ N1 N2) as [(l & w & EW & L1 & L2) RW _].
    pose proof (Hw 0%nat ltac:(cbn [List.length]; lia)) as W0. cbn [nth Z.of_nat] in W0. rewrite Z.add_0_r in W0. rnorm. rewrite W0. cbn [bind].
    destruct (stands_app _ _ _ _ Hs) as [Hrow Hnext]. rewrite EW in Hrow, RW.
    pose proof (stands_fuel _ _ _ Hrow) as Hf. rewrite app_length in Hf. cbn [List.length] in Hf.
    assert (ER := read_row_ok (dz := dz) fmt tol e (back_weight s idx) l w _ p (S (List.length e)) [] Hrow RW N2 L1 L2 ltac:(lia)).
    rnorm. rewrite ER. cbn [bind fst snd app].
    destruct (IH (k + 1) (p + zlen l + 1) (acc ++ [new_row (dz := dz) (back_coord s) s (ph_dim (sp_ph s)) idx]) M Hg') as (p' & E).
    + replace (p + zlen l + 1) with (p + zlen (opened (map fmt (row_nums s idx)))) by (rewrite EW; unfold zlen; rewrite app_length; cbn [List.length]; lia). exact Hnext.
    + lia.
    + intros i Hii. replace (k + 1 + Z.of_nat i) with (k + Z.of_nat (S i)) by lia. apply (Hw (S i)). cbn [List.length]. lia.
    + exists p'. rewrite <- (app_assoc acc) in E. cbn [app] in E. rewrite <- E. f_equal. f_equal. f_equal. f_equal. unfold new_row, row_nums, is_nurbs, back_coord.
      destruct (ph_wts (sp_ph s)); cbn [app map skipn]; now rewrite map_map.
Qed.
End Back.
