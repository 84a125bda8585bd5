(* Evaluation with int arithmetic agrees with evaluation with integers of any size. *)
From Coq Require Import ZArith List Bool Lia.
From Verif Require Import Base BaseFacts MultiIndex MultiIndexSpec MultiIndexFacts TensorSum KnotVec Basis Spaces SplineEval IntEval IntSpec IntFacts.
Import ListNotations.
Open Scope Z_scope.

Lemma i32_id z : is_int z -> i32 z = z.
Proof. intros [A B]. unfold i32. rewrite Z.mod_small; lia. Qed.

Lemma bind_ext {A B} (m : Res A) (f g : A -> Res B) : (forall a, m = Ok a -> f a = g a) -> bind m f = bind m g.
Proof. destruct m; cbn; auto. Qed.

Lemma mih_for_ext {St} (body body' : mih -> St -> Res St) lens : (forall h st, mlen h = lens -> in_box lens (mcur h) -> body h st = body' h st) ->
  forall n h st, mlen h = lens -> in_box lens (mcur h) -> mih_for n h body st = mih_for n h body' st.
Proof.
  intros Hb. induction n as [|n IH]; intros h st Hl Hi; cbn [mih_for]; auto. rewrite Hb by auto. apply bind_ext. intros st' _.
  apply IH; cbn [mih_incr mlen mcur]; auto. rewrite <- Hl in *. now apply incr_box.
Qed.

Lemma loop_int {St} (body body' : mih -> St -> Res St) lens st : pos_lens lens -> total lens < 2 ^ 31 ->
  (forall h st, mlen h = lens -> in_box lens (mcur h) -> body h st = body' h st) ->
  mih_loop_int lens body st = mih_loop lens body' st.
Proof.
  intros Hp Hl Hb. unfold mih_loop_int, mih_loop. rewrite length_int_ok by auto. cbn [bind].
  apply (mih_for_ext _ _ lens Hb); [reflexivity | now apply in_box_origin].
Qed.

Section IntEval.
Context {F : NumOps}.
Implicit Types (us : list F).

Lemma lower_range (kv : list F) (u : F) : 0 <= lower_bound kv u <= zlen kv.
Proof. unfold zlen. induction kv as [|x kv IH]; cbn [lower_bound length]; [lia|]. destruct (nltb x u); lia. Qed.
Lemma upper_range (kv : list F) (u : F) : 0 <= upper_bound kv u <= zlen kv.
Proof. unfold zlen. induction kv as [|x kv IH]; cbn [upper_bound length]; [lia|]. destruct (nltb u x); lia. Qed.
Lemma span_range (kv : list F) (u : F) k : knot_span kv u = Ok k -> -1 <= k < zlen kv.
Proof.
  unfold knot_span. intros E. apply bind_Ok in E as (b & _ & E). injection E as <-. pose proof (lower_range kv u). pose proof (upper_range kv u). destruct b; lia.
Qed.

Section Spline.
Variable s : spline F.
Hypothesis Hc : consistent s.
Hypothesis Hf : fits s.
Local Notation npts := (ph_npts (sp_ph s)).
Local Notation degs := (ps_degs (sp_ps s)).

Lemma npts_pos : pos_lens npts.
Proof. destruct Hc as (H & _). clear - H. induction H; constructor; auto; lia. Qed.
Lemma total_fits : 1 <= total npts /\ 1 <= ph_dim (sp_ph s) /\ ph_dim (sp_ph s) * total npts < 2 ^ 31 /\ total npts < 2 ^ 31.
Proof. destruct Hc as (_ & _ & _ & D), Hf as (_ & I). pose proof (total_pos _ npts_pos). unfold is_int in I. nia. Qed.
Lemma point_fits n : In n npts -> n < 2 ^ 31.
Proof.
  intros Hn. destruct total_fits as (_ & _ & _ & T). pose proof npts_pos as P. clear - Hn T P. revert Hn T.
  induction P as [|m l Hm P IH]; intros Hn T; [destruct Hn|]. rewrite total_cons in T. pose proof (total_pos _ P). destruct Hn as [->|Hn]; [nia|]. apply IH; auto. nia.
Qed.

Lemma lens_ok : num_to_evaluate_int s = Ok (num_to_evaluate s) /\ pos_lens (num_to_evaluate s) /\ total (num_to_evaluate s) < 2 ^ 31.
Proof.
  destruct total_fits as (_ & _ & _ & T). destruct Hc as (H & _). pose proof point_fits as P.
  assert (G : Forall2 (fun q n => 0 <= q < n /\ n < 2 ^ 31) degs npts).
  { revert P. clear - H. induction H as [|q n qs ns Hq H IH]; intros P; constructor; [split; auto; apply P; now left|]. apply IH. intros m Hm. apply P. now right. }
  split; [|split].
  - unfold num_to_evaluate_int, num_to_evaluate. clear - G. induction G as [|q n qs ns Hq G IH]; cbn [mapM map]; auto.
    rewrite cint_ok by (unfold is_int; lia). cbn [bind]. now rewrite IH.
  - unfold num_to_evaluate. clear - G. induction G; cbn; constructor; auto; lia.
  - assert (L : total (num_to_evaluate s) <= total npts /\ 1 <= total (num_to_evaluate s)); [|lia].
    unfold num_to_evaluate. clear - G. induction G as [|q n qs ns Hq G IH]; cbn [map]; [cbn; lia|]. rewrite !total_cons. nia.
Qed.

Lemma deg_len : length degs = length npts.
Proof. destruct Hc as (H & _). clear - H. induction H; cbn; auto. Qed.

(* the first basis functions: equal, and with room for the degrees *)
Lemma fnz_ok us : length us = length npts -> first_non_zero_int (sp_ps s) us = first_non_zero (sp_ps s) us /\
  forall fnz, first_non_zero (sp_ps s) us = Ok fnz -> Forall2 (fun q f => -1 - q <= f /\ f + q < 2 ^ 31 /\ 0 <= q < 2 ^ 31) degs fnz.
Proof.
  intros Hu. unfold first_non_zero_int, first_non_zero. pose proof deg_len as Hd. pose proof point_fits as P. destruct Hc as (H & _ & Hk & _), Hf as (Kf & _).
  assert (G : Forall (fun q => 0 <= q < 2 ^ 31) degs).
  { revert P. clear - H. induction H as [|q n qs ns Hq H IH]; intros P; constructor; [specialize (P n (or_introl eq_refl)); lia|]. apply IH. intros m Hm. apply P. now right. }
  set (kn := ps_knots (sp_ps s)) in *. set (dg := degs) in *. clearbody kn dg. rewrite <- Hk in *. clear - G Kf Hd Hu. revert us dg Hu Hd G.
  induction Kf as [|kv kn Hkv Kf IH]; intros us dg Hu Hd G; destruct us as [|u us], dg as [|q dg]; cbn [length] in *; try lia.
  - split; [reflexivity|]. intros fnz E. cbn in E. injection E as <-. constructor.
  - inversion G as [|? ? G1 G2]; subst. destruct (IH us dg ltac:(lia) ltac:(lia) G2) as (E1 & E2). cbn [combine mapM fst snd]. split.
    + destruct (knot_span kv u) as [k| |] eqn:Ek; cbn [bind]; auto. pose proof (span_range kv u k Ek) as R. unfold is_int in Hkv.
      rewrite i32_id, cint_ok by (unfold is_int; lia). cbn [bind]. now rewrite E1.
    + intros fnz E. apply bind_Ok in E as (f & Ef & E). apply bind_Ok in E as (fs & Efs & E). injection E as <-.
      apply bind_Ok in Ef as (k & Ek & Ef). injection Ef as <-. pose proof (span_range kv u k Ek) as R. unfold is_int in Hkv. constructor; auto. lia.
Qed.

Lemma add_ok fnz cur : Forall2 (fun q f => -1 - q <= f /\ f + q < 2 ^ 31 /\ 0 <= q < 2 ^ 31) degs fnz -> in_box (num_to_evaluate s) cur ->
  add_int cur fnz = Ok (map2 Z.add cur fnz) /\ length (map2 Z.add cur fnz) = length npts.
Proof.
  rewrite <- deg_len. unfold num_to_evaluate, add_int. intros H Hi. revert cur Hi.
  induction H as [|q f qs fs Hq H IH]; intros cur Hi; cbn [map] in Hi; inversion Hi as [|? c ? cs C1 C2]; subst; cbn [combine mapM map2 length]; auto.
  destruct (IH cs C2) as (E & L). cbn [fst snd]. rewrite cint_ok by (unfold is_int; lia). cbn [bind]. rewrite E. cbn [bind]. now rewrite L.
Qed.

(* an index that the basis functions accept is in the box *)
Lemma basis_in_box us idx v : length us = length npts -> length idx = length npts -> get_basis_functions (sp_ps s) idx us = Ok v -> in_box npts idx.
Proof.
  destruct Hc as (_ & H & _ & _). unfold get_basis_functions. generalize (@n1 F) as a. revert idx us.
  induction H as [|fs n fss ns Hn H IH]; intros [|i idx] [|u us] a Hu Hi E; cbn [length] in *; try lia; [constructor|].
  cbn [combine foldM fst snd] in E. apply bind_Ok in E as (a' & Ea & E). apply bind_Ok in Ea as (b & Eb & _). constructor; [|eapply IH; eauto; lia].
  unfold vget in Eb. destruct (_ && _) eqn:C in Eb; [|discriminate]. apply andb_true_iff in C as (C1 & C2). apply Z.leb_le in C1. apply Z.ltb_lt in C2. unfold zlen in Hn. lia.
Qed.
Lemma derivs_in_box us idx ders v : length us = length npts -> length idx = length npts -> length ders = length npts ->
  get_basis_function_derivs (sp_ps s) idx us ders = Ok v -> in_box npts idx.
Proof.
  destruct Hc as (_ & H & _ & _). unfold get_basis_function_derivs. generalize (@n1 F) as a. revert idx us ders.
  induction H as [|fs n fss ns Hn H IH]; intros [|i idx] [|u us] [|k ders] a Hu Hi Hd E; cbn [length] in *; try lia; [constructor|].
  cbn [combine foldM fst snd] in E. apply bind_Ok in E as (a' & Ea & E). apply bind_Ok in Ea as (b & Eb & _).
  constructor; [|apply (IH idx us ders a'); auto; lia].
  unfold vget in Eb. destruct (_ && _) eqn:C in Eb; [|discriminate]. apply andb_true_iff in C as (C1 & C2). apply Z.leb_le in C1. apply Z.ltb_lt in C2. unfold zlen in Hn. lia.
Qed.

Section Box.
Variable idx : list Z.
Hypothesis Hi : in_box npts idx.

Lemma index_ok : get1d_int npts idx = Ok (get1d npts idx) /\ 0 <= get1d npts idx < total npts.
Proof. destruct total_fits as (_ & _ & _ & T). pose proof (get1d_range _ _ Hi) as R. split; auto. apply get1d_int_ok; auto. lia. Qed.
Lemma weight_ok : get_weight_int (sp_ph s) idx = get_weight (sp_ph s) idx.
Proof. unfold get_weight_int, get_weight. destruct (ph_wts _); auto. now rewrite (proj1 index_ok). Qed.
Lemma offsets_ok c : In c (zseq 0 (Z.to_nat (ph_dim (sp_ph s)))) -> is_int (ph_dim (sp_ph s) * get1d npts idx) /\ is_int (ph_dim (sp_ph s) * get1d npts idx + c).
Proof.
  intros Hin. apply zseq_In in Hin. destruct total_fits as (T1 & D & T & _). destruct index_ok as (_ & R). unfold is_int.
  assert (0 <= ph_dim (sp_ph s) * get1d npts idx) by nia. assert (ph_dim (sp_ph s) * get1d npts idx + ph_dim (sp_ph s) <= ph_dim (sp_ph s) * total npts) by nia. lia.
Qed.
Lemma first_ok : is_int (ph_dim (sp_ph s) * get1d npts idx).
Proof. destruct total_fits as (_ & D & _ & _). apply (offsets_ok 0). apply zseq_In. lia. Qed.
Lemma point_ok : get_control_point_int (sp_ph s) idx = get_control_point (sp_ph s) idx.
Proof.
  unfold get_control_point_int, get_control_point. rewrite (proj1 index_ok). cbn [bind]. rewrite cint_ok by apply first_ok. cbn [bind].
  apply mapM_ext. intros c Hin. now rewrite cint_ok by (apply offsets_ok; auto).
Qed.
Lemma homogeneous_ok : get_homogeneous_int (sp_ph s) idx = get_homogeneous (sp_ph s) idx.
Proof.
  unfold get_homogeneous_int, get_homogeneous. destruct (ph_wts _) as [w|]; auto. rewrite (proj1 index_ok). cbn [bind]. rewrite cint_ok by apply first_ok. cbn [bind].
  f_equal. apply mapM_ext. intros c Hin. now rewrite cint_ok by (apply offsets_ok; auto).
Qed.
End Box.

Lemma eweight_ok us idx : length us = length npts -> length idx = length npts -> evaluated_weight_int s us idx = evaluated_weight s us idx.
Proof. intros Hu Hi. unfold evaluated_weight_int, evaluated_weight. apply bind_ext. intros b Eb. rewrite weight_ok; auto. eapply basis_in_box; eauto. Qed.
Lemma edweight_ok us ders idx : length us = length npts -> length idx = length npts -> length ders = length npts ->
  evaluated_deriv_weight_int s us ders idx = evaluated_deriv_weight s us ders idx.
Proof.
  intros Hu Hi Hd. unfold evaluated_deriv_weight_int, evaluated_deriv_weight. apply bind_ext. intros b Eb. rewrite weight_ok; auto. eapply derivs_in_box; [..|exact Eb]; auto.
Qed.

(* a loop over the basis functions at us *)
Lemma loop_ok {St} us (g g' : list Z -> St -> Res St) st : length us = length npts ->
  (forall idx st, length idx = length npts -> g idx st = g' idx st) ->
  (fnz <- first_non_zero_int (sp_ps s) us ;; lens <- num_to_evaluate_int s ;;
   mih_loop_int lens (fun h st => idx <- add_int (mcur h) fnz ;; g idx st) st) =
  (fnz <- first_non_zero (sp_ps s) us ;; mih_loop (num_to_evaluate s) (fun h st => g' (map2 Z.add (mcur h) fnz) st) st).
Proof.
  intros Hu Hg. destruct (fnz_ok us Hu) as (E & B). rewrite E. apply bind_ext. intros fnz Ef. destruct lens_ok as (El & Hp & Ht). rewrite El. cbn [bind].
  apply loop_int; auto. intros h st' _ Hb. destruct (add_ok fnz (mcur h) (B fnz Ef) Hb) as (Ea & La). rewrite Ea. cbn [bind]. now apply Hg.
Qed.

Lemma wsum_ok us : length us = length npts -> weight_sum_int s us = weight_sum s us.
Proof.
  intros Hu. unfold weight_sum_int, weight_sum.
  apply (loop_ok us (fun idx sum => x <- evaluated_weight_int s us idx ;; Ok (sum + x)%num) (fun idx sum => x <- evaluated_weight s us idx ;; Ok (sum + x)%num)); auto.
  intros idx st Hi. now rewrite eweight_ok.
Qed.
Lemma dwsum_ok us ders : length us = length npts -> length ders = length npts -> deriv_weight_sum_int s us ders = deriv_weight_sum s us ders.
Proof.
  intros Hu Hd. unfold deriv_weight_sum_int, deriv_weight_sum.
  apply (loop_ok us (fun idx sum => x <- evaluated_deriv_weight_int s us ders idx ;; Ok (sum + x)%num) (fun idx sum => x <- evaluated_deriv_weight s us ders idx ;; Ok (sum + x)%num)); auto.
  intros idx st Hi. now rewrite edweight_ok.
Qed.

Lemma ecp_ok us idx dim : length us = length npts -> length idx = length npts -> evaluated_control_point_int s us idx dim = evaluated_control_point s us idx dim.
Proof.
  intros Hu Hi. unfold evaluated_control_point_int, evaluated_control_point. apply bind_ext. intros b Eb. pose proof (basis_in_box us idx b Hu Hi Eb) as Hb.
  unfold cp_value_int, cp_value. rewrite point_ok, homogeneous_ok by auto. destruct (ph_wts _); auto. now rewrite wsum_ok.
Qed.

Lemma evaluate_int_ok us dims : length us = length npts -> evaluate_int s us dims = evaluate s us dims.
Proof.
  intros Hu. unfold evaluate_int, evaluate. apply bind_ext. intros t _.
  apply (loop_ok us (fun idx pt => mapM (fun x => e <- evaluated_control_point_int s us idx (snd x) ;; Ok (fst x + e)%num) (combine pt dims))
                    (fun idx pt => mapM (fun x => e <- evaluated_control_point s us idx (snd x) ;; Ok (fst x + e)%num) (combine pt dims))); auto.
  intros idx st Hi. apply mapM_ext. intros x _. now rewrite ecp_ok.
Qed.

(* orders whose binomial coefficients fit, and with them all smaller orders *)
Section Orders.
Variable good : list Z -> Prop.
Hypothesis good_len : forall ders, good ders -> length ders = length npts /\ Forall (fun k => 0 <= k < 2 ^ 31 - 1) ders /\ total (map (fun k => k + 1) ders) < 2 ^ 31.
Hypothesis good_down : forall ders c, good ders -> in_box (map (fun k => k + 1) ders) c -> good (map2 Z.sub ders c).
Hypothesis good_binoms : forall ders c, good ders -> in_box (map (fun k => k + 1) ders) c -> binoms_int ders c = Ok (binoms ders c).

Lemma diff_ok ders c : Forall (fun k => 0 <= k < 2 ^ 31 - 1) ders -> in_box (map (fun k => k + 1) ders) c ->
  difference_int (mkMih (map (fun k => k + 1) ders) c) = Ok (map2 Z.sub ders c) /\
  difference_indices (mkMih (map (fun k => k + 1) ders) c) = map2 Z.sub ders c.
Proof.
  unfold difference_int, difference_indices. cbn [mlen mcur]. intros Hd. revert c. induction Hd as [|d ders D1 D2 IH]; intros c Hb; cbn [map] in Hb; inversion Hb as [|? k ? cs C1 C2]; subst; cbn [map combine mapM map2]; auto.
  destruct (IH cs C2) as (E1 & E2). cbn [fst snd]. rewrite (cint_ok (d + 1 - k)) by (unfold is_int; lia). cbn [bind]. rewrite cint_ok by (unfold is_int; lia). cbn [bind].
  rewrite E1. cbn [bind]. rewrite E2. replace (d + 1 - k - 1) with (d - k) by ring. auto.
Qed.

Lemma rational_ok fuel us idx : length us = length npts -> in_box npts idx -> forall ders, good ders ->
  rational_deriv_int fuel s us ders idx = rational_deriv fuel s us ders idx.
Proof.
  intros Hu Hb. pose proof (in_box_length _ _ Hb) as Hi. induction fuel as [|f IH]; intros ders Hg; [reflexivity|]. cbn [rational_deriv_int rational_deriv].
  destruct (good_len ders Hg) as (Hl & Hr & Ht).
  destruct (forallb _ ders); [now rewrite weight_ok, wsum_ok|]. rewrite edweight_ok by auto. apply bind_ext. intros a _.
  assert (El : mapM (fun k => cint (k + 1)) ders = Ok (map (fun k => k + 1) ders)).
  { apply mapM_ok. intros k Hk. apply cint_ok. rewrite Forall_forall in Hr. specialize (Hr k Hk). unfold is_int. lia. }
  assert (Hp : pos_lens (map (fun k => k + 1) ders)) by (clear - Hr; induction Hr; cbn; constructor; auto; lia).
  rewrite El. cbn [bind]. rewrite length_int_ok by auto. cbn [bind]. rewrite wsum_ok by auto. f_equal.
  apply (mih_for_ext _ _ (map (fun k => k + 1) ders)); [|reflexivity | apply incr_box, in_box_origin; auto].
  intros [hl hc] sum Hh Hin. cbn [mlen mcur] in *. subst hl. rewrite good_binoms by auto. cbn [bind].
  destruct (diff_ok ders hc Hr Hin) as (E1 & E2). rewrite E1, E2. cbn [bind]. rewrite IH by (apply good_down; auto).
  rewrite dwsum_ok; auto. pose proof (in_box_length _ _ Hin) as L. rewrite map_length in L. lia.
Qed.

(* the first thing computed from an index are the basis functions there *)
Lemma rational_box fuel us idx ders : length us = length npts -> length idx = length npts -> length ders = length npts -> ~ in_box npts idx ->
  match fuel with O => True | S _ => exists e, (forall v : F, e <> Ok v) /\ rational_deriv_int fuel s us ders idx = e /\ rational_deriv fuel s us ders idx = e end.
Proof.
  intros Hu Hi Hl Hn. destruct fuel as [|f]; auto. cbn [rational_deriv_int rational_deriv]. destruct (forallb _ ders).
  - destruct (get_basis_functions (sp_ps s) idx us) as [b|e|] eqn:E.
    + exfalso. apply Hn. eapply basis_in_box; eauto.
    + exists (Throw e). cbn. repeat split; discriminate.
    + exists UB. cbn. repeat split; discriminate.
  - unfold evaluated_deriv_weight_int, evaluated_deriv_weight. destruct (get_basis_function_derivs (sp_ps s) idx us ders) as [b|e|] eqn:E.
    + exfalso. apply Hn. eapply derivs_in_box; [..|exact E]; auto.
    + exists (Throw e). cbn. repeat split; discriminate.
    + exists UB. cbn. repeat split; discriminate.
Qed.
End Orders.

Lemma box_dec idx : length idx = length npts -> in_box npts idx \/ ~ in_box npts idx.
Proof.
  generalize npts as l. intros l. revert idx. induction l as [|n l IH]; intros [|i idx] H; cbn [length] in H; try lia; [left; constructor|].
  destruct (IH idx ltac:(lia)) as [A|A]; [|right; intros B; inversion B; auto].
  destruct (Z_le_dec 0 i), (Z_lt_dec i n); [left; constructor; auto | right; intros B; inversion B; lia ..].
Qed.

Lemma derivative_int_ok (good : list Z -> Prop) us dims ders :
  (forall ders, good ders -> length ders = length npts /\ Forall (fun k => 0 <= k < 2 ^ 31 - 1) ders /\ total (map (fun k => k + 1) ders) < 2 ^ 31) ->
  (forall ders c, good ders -> in_box (map (fun k => k + 1) ders) c -> good (map2 Z.sub ders c)) ->
  (forall ders c, good ders -> in_box (map (fun k => k + 1) ders) c -> binoms_int ders c = Ok (binoms ders c)) ->
  length us = length npts -> length ders = length npts -> (ph_wts (sp_ph s) = None \/ good ders) ->
  evaluate_derivative_int s us dims ders = evaluate_derivative s us dims ders.
Proof.
  intros G1 G2 G3 Hu Hd Hw. unfold evaluate_derivative_int, evaluate_derivative. apply bind_ext. intros t _.
  apply (loop_ok us (fun idx pt => mapM (fun x => e <- evaluated_deriv_control_point_int s us ders idx (snd x) ;; Ok (fst x + e)%num) (combine pt dims))
                    (fun idx pt => mapM (fun x => e <- evaluated_deriv_control_point s us ders idx (snd x) ;; Ok (fst x + e)%num) (combine pt dims))); auto.
  intros idx st Hi. apply mapM_ext. intros x _. f_equal. unfold evaluated_deriv_control_point_int, evaluated_deriv_control_point, cp_value_int, cp_value.
  destruct (ph_wts (sp_ph s)) as [w|] eqn:Ew.
  - destruct Hw as [Hw|Hw]; [discriminate|]. destruct (box_dec idx Hi) as [Hb|Hb].
    + rewrite (rational_ok good G1 G2 G3) by auto. rewrite point_ok by auto. reflexivity.
    + destruct (rational_box (S (Z.to_nat (fold_right Z.add 0 ders))) us idx ders Hu Hi Hd Hb) as (e & He & E1 & E2). rewrite E1, E2.
      destruct e as [v| |]; auto. exfalso. now apply (He v).
  - apply bind_ext. intros b Eb. rewrite point_ok; auto. eapply derivs_in_box; [..|exact Eb]; auto.
Qed.

Lemma derivative_30 us dims ders : length us = length npts -> length ders = length npts ->
  (ph_wts (sp_ph s) = None \/ Forall (fun k => 0 <= k) ders /\ fold_right Z.add 0 ders <= 30) ->
  evaluate_derivative_int s us dims ders = evaluate_derivative s us dims ders.
Proof.
  intros Hu Hd Hw.
  apply (derivative_int_ok (fun ders => length ders = length npts /\ Forall (fun k => 0 <= k) ders /\ fold_right Z.add 0 ders <= 30)); auto.
  - intros d (L & P & S). split; auto. split.
    + clear - P S. induction P as [|k d Hk P IH]; constructor; cbn [fold_right] in S.
      * assert (0 <= fold_right Z.add 0 d) by (clear - P; induction P; cbn; lia). lia.
      * apply IH. lia.
    + assert (A : total (map (fun k => k + 1) d) <= 2 ^ fold_right Z.add 0 d).
      { clear - P. induction P as [|k d Hk P IH]; cbn [map fold_right]; [cbn; lia|]. rewrite total_cons.
        assert (0 <= fold_right Z.add 0 d) by (clear - P; induction P; cbn; lia). rewrite Z.pow_add_r by lia.
        assert (k + 1 <= 2 ^ k) by (pose proof (Z.pow_gt_lin_r 2 k ltac:(lia) Hk); lia).
        assert (0 < 2 ^ fold_right Z.add 0 d) by (apply Z.pow_pos_nonneg; lia). nia. }
      assert (2 ^ fold_right Z.add 0 d <= 2 ^ 30) by (apply Z.pow_le_mono_r; lia). lia.
  - intros d c (L & P & S) Hb. pose proof (in_box_length _ _ Hb) as Lc. rewrite map_length in Lc.
    assert (G : length (map2 Z.sub d c) = length d /\ Forall (fun k => 0 <= k) (map2 Z.sub d c) /\ fold_right Z.add 0 (map2 Z.sub d c) <= fold_right Z.add 0 d).
    { clear - P Hb. revert c Hb. induction P as [|k d Hk P IH]; intros c Hb; cbn [map] in Hb; inversion Hb as [|? j ? cs C1 C2]; subst; cbn [map2 length fold_right]; [repeat split; [constructor | lia]|].
      destruct (IH cs C2) as (A & B & C). repeat split; [lia | constructor; auto; lia | lia]. }
    destruct G as (A & B & C). repeat split; [lia | auto | lia].
  - intros d c (L & P & S) Hb. now apply binoms_int_ok.
  - destruct Hw as [Hw|(A & B)]; auto.
Qed.

Lemma derivative_33 us dims n : length npts = 1%nat -> length us = 1%nat -> 0 <= n <= 33 ->
  evaluate_derivative_int s us dims [n] = evaluate_derivative s us dims [n].
Proof.
  intros L1 Hu Hn.
  apply (derivative_int_ok (fun ders => exists n, ders = [n] /\ 0 <= n <= 33)); rewrite ?L1; auto.
  - intros d (m & -> & Hm). repeat split; [constructor; auto; lia | cbn; lia].
  - intros d c (m & -> & Hm) Hb. cbn [map] in Hb. inversion Hb as [|? j ? cs C1 C2]; inversion C2; subst. exists (m - j). split; [reflexivity | lia].
  - intros d c (m & -> & Hm) Hb. cbn [map] in Hb. inversion Hb as [|? j ? cs C1 C2]; inversion C2; subst. unfold binoms_int, binoms. cbn [combine foldM fold_left fst snd].
    pose proof (choose_33 (Z.to_nat m) (Z.to_nat j) ltac:(lia)) as U. pose proof (choose_pos (Z.to_nat m) (Z.to_nat j) ltac:(lia)) as V.
    rewrite binom_int_eq, binom_choose by lia. rewrite cint_ok by (unfold is_int; lia). cbn [bind]. rewrite cint_ok by (unfold is_int; lia). reflexivity.
  - right. eauto.
Qed.
End Spline.
End IntEval.
