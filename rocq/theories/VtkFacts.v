(* Lemmas about the VTK writer: the sample grid and the cells. *)
From Coq Require Import ZArith List Lia Bool.
From Verif Require Import Base BaseFacts MultiIndex MultiIndexSpec MultiIndexFacts TensorSum SplineSpec EvalFacts Convert ConvertFacts Vtk VtkSpec.
Import ListNotations.
Open Scope Z_scope.

Lemma flat_map_zseq (l : Z) n k : 0 <= l -> flat_map (fun k => zseq (l * k) (Z.to_nat l)) (zseq k n) = zseq (l * k) (Z.to_nat (l * Z.of_nat n)).
Proof.
  intros Hl. revert k. induction n as [|n IH]; intros k; cbn [zseq flat_map].
  - replace (Z.to_nat (l * Z.of_nat 0)) with O by lia. reflexivity.
  - rewrite IH. replace (Z.to_nat (l * Z.of_nat (S n))) with (Z.to_nat l + Z.to_nat (l * Z.of_nat n))%nat by nia.
    rewrite zseq_app. f_equal. f_equal. lia.
Qed.

Lemma flat_map_map {A B C} (f : B -> list C) (g : A -> B) l : flat_map f (map g l) = flat_map (fun x => f (g x)) l.
Proof. induction l as [|x l IH]; cbn [map flat_map]; congruence. Qed.

Lemma map_flat_map {A B C} (f : B -> C) (g : A -> list B) l : map f (flat_map g l) = flat_map (fun x => map f (g x)) l.
Proof. induction l as [|x l IH]; cbn [flat_map]; [reflexivity|]. now rewrite map_app, IH. Qed.

Lemma flat_map_ext_in {A B} (f g : A -> list B) l : (forall x, In x l -> f x = g x) -> flat_map f l = flat_map g l.
Proof.
  induction l as [|x l IH]; intros H; cbn [flat_map]; [reflexivity|].
  rewrite H by now left. f_equal. apply IH. intros y Hy. apply H. now right.
Qed.

Lemma zseq_plus a n : map (fun i => i + a) (zseq 0 n) = zseq a n.
Proof.
  rewrite (zseq_map 0), (zseq_map a), map_map. apply map_ext. intros k. lia.
Qed.

Lemma grid_numbers lens : Forall (fun l => 0 <= l) lens -> map (get1d lens) (grid lens) = zseq 0 (Z.to_nat (total lens)).
Proof.
  intros H. induction H as [|l ls Hl H IH]; [reflexivity|].
  cbn [grid]. rewrite map_flat_map.
  rewrite (flat_map_ext_in _ (fun js => (fun k => zseq (l * k) (Z.to_nat l)) (get1d ls js))).
  2:{ intros js _. rewrite map_map. rewrite (map_ext _ (fun i => i + l * get1d ls js)) by (intros; apply get1d_cons). apply zseq_plus. }
  rewrite <- (flat_map_map (fun k => zseq (l * k) (Z.to_nat l)) (get1d ls)), IH, flat_map_zseq by auto. rewrite total_cons.
  assert (0 <= total ls) by (clear - H; induction H; cbn; [lia|]; unfold total in *; nia).
  f_equal; [lia|]. f_equal. lia.
Qed.

Lemma grid_In lens idx : In idx (grid lens) <-> in_box lens idx.
Proof.
  revert idx. induction lens as [|l ls IH]; intros idx; cbn [grid].
  - split; [intros [<- |[]]; constructor | intros H; inversion H; now left].
  - rewrite in_flat_map. split.
    + intros (js & Hj & Hi). apply in_map_iff in Hi. destruct Hi as (i & <- & Hi). apply zseq_In in Hi.
      constructor; [lia | now apply IH].
    + intros H. inversion H as [|? i ? js Hi Hj]; subst. exists js. split; [now apply IH|].
      apply in_map_iff. exists i. split; [reflexivity|]. apply zseq_In. lia.
Qed.

Lemma map_inj {A B} (f : A -> B) l1 l2 : (forall x y, In x l1 -> In y l2 -> f x = f y -> x = y) -> map f l1 = map f l2 -> l1 = l2.
Proof.
  revert l2. induction l1 as [|x l1 IH]; intros [|y l2] H E; cbn [map] in E; try discriminate; [reflexivity|].
  injection E as E1 E2. f_equal.
  - apply H; auto; now left.
  - apply IH; auto. intros a b Ha Hb. apply H; now right.
Qed.

Lemma visited_grid lens : pos_lens lens -> visited lens = grid lens.
Proof.
  intros H. apply (map_inj (get1d lens)).
  - intros x y Hx Hy. apply visited_In in Hx; auto. apply grid_In in Hy. now apply get1d_inj.
  - rewrite grid_numbers by (eapply Forall_impl; [|exact H]; cbv beta; intros; lia).
    unfold visited. rewrite map_map, zseq_map. apply map_ext_in. intros k Hk. apply in_seq in Hk.
    rewrite nth_index_get1d; auto; lia.
Qed.

Lemma grid_length lens : Forall (fun l => 0 <= l) lens -> length (grid lens) = Z.to_nat (size lens).
Proof. intros H. rewrite <- (map_length (get1d lens)), grid_numbers, zseq_length by auto. reflexivity. Qed.

(* entry number position idx of the list of all sample points is idx *)
Lemma grid_nth lens idx : in_box lens idx -> nth_error (grid lens) (Z.to_nat (position lens idx)) = Some idx.
Proof.
  intros H. pose proof (in_box_pos _ _ H) as P. pose proof (get1d_range _ _ H). rewrite position_get1d.
  rewrite <- visited_grid by auto. unfold visited. rewrite nth_error_map.
  rewrite (nth_error_nth' _ 0%nat) by (rewrite seq_length; lia). cbn [option_map].
  rewrite seq_nth, Nat.add_0_l by lia. now rewrite nth_index_of_get1d.
Qed.

(* ---- cells inside the grid of points ---- *)
Fixpoint inside (sc idx : list Z) : bool :=
  match sc, idx with n :: sc', i :: idx' => negb (i =? n) && inside sc' idx' | _, _ => true end.

Lemma inside_grid sc : Forall (fun n => 0 <= n) sc -> filter (inside sc) (grid (samples sc)) = grid sc.
Proof.
  intros H. induction H as [|n sc Hn H IH]; [reflexivity|].
  cbn [grid samples map]. fold (samples sc). rewrite <- IH. generalize (grid (samples sc)). intros G.
  induction G as [|js G IHG]; [reflexivity|]. cbn [flat_map filter]. rewrite filter_app, IHG.
  assert (E : filter (inside (n :: sc)) (map (fun i => i :: js) (zseq 0 (Z.to_nat (n + 1)))) =
              if inside sc js then map (fun i => i :: js) (zseq 0 (Z.to_nat n)) else []).
  { replace (Z.to_nat (n + 1)) with (Z.to_nat n + 1)%nat by lia. rewrite zseq_app, map_app, filter_app. cbn [zseq map filter inside].
    replace (0 + Z.of_nat (Z.to_nat n)) with n by lia. rewrite Z.eqb_refl. cbn [negb andb]. rewrite app_nil_r.
    assert (Hlt : forall i, In i (zseq 0 (Z.to_nat n)) -> i <> n) by (intros i Hi; apply zseq_In in Hi; lia).
    clear IHG. induction (zseq 0 (Z.to_nat n)) as [|i l IHl]; cbn [map filter]; [now destruct (inside sc js)|].
    cbn [inside]. rewrite (proj2 (Z.eqb_neq i n)) by (apply Hlt; now left). cbn [negb andb].
    rewrite IHl by (intros; apply Hlt; now right). now destruct (inside sc js). }
  rewrite E. destruct (inside sc js); reflexivity.
Qed.

Lemma flat_map_filter {A B} (p : A -> bool) (f : A -> B) l : flat_map (fun x => if p x then [f x] else []) l = map f (filter p l).
Proof. induction l as [|x l IH]; cbn [flat_map filter]; [reflexivity|]. rewrite IH. now destruct (p x). Qed.

(* ---- moving the handler ---- *)
Lemma iterate_add {A} a b (f : A -> A) x : iterate a f (iterate b f x) = iterate (b + a) f x.
Proof. induction a as [|a IH]; [now rewrite Nat.add_0_r|]. rewrite Nat.add_succ_r. cbn [iterate]. now rewrite IH. Qed.

Lemma plus_plus h a b : 0 <= a -> 0 <= b -> mih_plus (mih_plus h a) b = mih_plus h (a + b).
Proof. intros. unfold mih_plus. rewrite iterate_add. f_equal. lia. Qed.

Lemma plus_minus h a b : in_box (mlen h) (mcur h) -> 0 <= b <= a -> mih_minus (mih_plus h a) b = mih_plus h (a - b).
Proof.
  intros H Hab. unfold mih_plus, mih_minus. replace (Z.to_nat a) with (Z.to_nat (a - b) + Z.to_nat b)%nat by lia.
  rewrite <- iterate_add. apply iter_decr_incr. rewrite iter_incr_mlen. now apply iter_incr_box.
Qed.

Lemma plus_0 h : mih_plus h 0 = h.
Proof. reflexivity. Qed.

Lemma plus_get1d h a : in_box (mlen h) (mcur h) -> 0 <= a -> a + mih_get1d h < total (mlen h) ->
  mih_get1d (mih_plus h a) = mih_get1d h + a.
Proof. intros. unfold mih_plus. rewrite iter_incr_get1d by (auto; lia). lia. Qed.

Lemma quad_ok s0 s1 off i j acc : 0 <= i <= s0 -> 0 <= j <= s1 ->
  quad_step s0 s1 off (mkMih [s0 + 1; s1 + 1] [i; j], acc) =
  Ok (mkMih [s0 + 1; s1 + 1] [i; j], acc ++ (if inside [s0; s1] [i; j] then [cell [s0; s1] off [i; j]] else [])).
Proof.
  intros Hi Hj. unfold quad_step. cbn [mcur].
  change (vget [i; j] 0) with (Ok i). change (vget [i; j] 1) with (Ok j). cbn [bind inside]. rewrite andb_true_r.
  destruct (negb (i =? s0) && negb (j =? s1)) eqn:E; [|now rewrite app_nil_r].
  apply andb_prop in E. destruct E as [E1 E2]. apply negb_true_iff, Z.eqb_neq in E1. apply negb_true_iff, Z.eqb_neq in E2.
  set (h := mkMih _ _).
  assert (Hb : in_box (mlen h) (mcur h)) by (repeat constructor; lia).
  assert (Hg : mih_get1d h = i + (s0 + 1) * j) by (unfold mih_get1d; cbn [h mlen mcur]; rewrite !get1d_cons, get1d_nil; ring).
  assert (Ht : total (mlen h) = (s0 + 1) * (s1 + 1)) by (cbn; ring).
  rewrite !plus_plus by lia. rewrite !plus_minus by (auto; lia).
  match goal with |- Ok (mih_plus h ?a, _) = _ => replace a with 0 by ring end. rewrite plus_0.
  rewrite !plus_get1d by (auto; rewrite ?Hg, ?Ht; nia). rewrite !Hg.
  unfold cell. cbn [length corners map samples map2 combine fst snd position zlen].
  apply (f_equal (fun c => Ok (h, acc ++ [c]))). apply f_equal2; [reflexivity|]. repeat (apply f_equal2; [ring|]). reflexivity.
Qed.

Lemma hexa_ok s0 s1 s2 off i j k acc : 0 <= i <= s0 -> 0 <= j <= s1 -> 0 <= k <= s2 ->
  hexa_step s0 s1 s2 off (mkMih [s0 + 1; s1 + 1; s2 + 1] [i; j; k], acc) =
  Ok (mkMih [s0 + 1; s1 + 1; s2 + 1] [i; j; k],
      acc ++ (if inside [s0; s1; s2] [i; j; k] then [cell [s0; s1; s2] off [i; j; k]] else [])).
Proof.
  intros Hi Hj Hk. unfold hexa_step. cbn [mcur].
  change (vget [i; j; k] 0) with (Ok i). change (vget [i; j; k] 1) with (Ok j). change (vget [i; j; k] 2) with (Ok k).
  cbn [bind inside]. rewrite andb_true_r, <- andb_assoc.
  destruct (negb (i =? s0) && (negb (j =? s1) && negb (k =? s2))) eqn:E; [|now rewrite app_nil_r].
  apply andb_prop in E. destruct E as [E1 E]. apply andb_prop in E. destruct E as [E2 E3].
  apply negb_true_iff, Z.eqb_neq in E1. apply negb_true_iff, Z.eqb_neq in E2. apply negb_true_iff, Z.eqb_neq in E3.
  set (h := mkMih _ _).
  assert (Hb : in_box (mlen h) (mcur h)) by (repeat constructor; lia).
  assert (Hg : mih_get1d h = i + (s0 + 1) * (j + (s1 + 1) * k))
    by (unfold mih_get1d; cbn [h mlen mcur]; rewrite !get1d_cons, get1d_nil; ring).
  assert (Ht : total (mlen h) = (s0 + 1) * ((s1 + 1) * (s2 + 1))) by (cbn; ring).
  assert (Hn : 0 <= s1 * (s0 + 1)) by nia.
  assert (Hmax : 1 + s0 + 1 + s1 * (s0 + 1) + s0 + 1 + mih_get1d h < total (mlen h)).
  { rewrite Hg, Ht.
    assert (j + (s1 + 1) * k <= s1 - 1 + (s1 + 1) * (s2 - 1)) by nia.
    assert ((s0 + 1) * (j + (s1 + 1) * k) <= (s0 + 1) * (s1 - 1 + (s1 + 1) * (s2 - 1))) by nia. nia. }
  replace ((s0 + 1) * (s1 + 2)) with (s1 * (s0 + 1) + (s0 + 1) + (s0 + 1)) by ring.
  cbv zeta. remember (s1 * (s0 + 1)) as N eqn:HN.
  repeat first [rewrite (plus_plus h) by lia | rewrite (plus_minus h) by (auto; lia)].
  match goal with |- Ok (mih_plus h ?a, _) = _ => replace a with 0 by ring end. rewrite plus_0.
  rewrite !plus_get1d by (auto; lia). rewrite !Hg.
  unfold cell. cbn [length corners map samples map2 combine fst snd position zlen].
  apply (f_equal (fun c => Ok (h, acc ++ [c]))). apply f_equal2; [reflexivity|]. subst N. repeat (apply f_equal2; [ring|]). reflexivity.
Qed.

(* ---- the loops over the points ---- *)
Fixpoint rep {S} (n : nat) (f : S -> Res S) (s : S) : Res S :=
  match n with O => Ok s | Datatypes.S n' => s' <- f s ;; rep n' f s' end.

Lemma for_n_rep {S} n lo (f : S -> Res S) s : for_n n lo (fun _ => f) s = rep n f s.
Proof. revert lo s. induction n as [|n IH]; intros lo s; cbn [for_n rep]; [reflexivity|]. destruct (f s); cbn [bind]; auto. Qed.

Lemma rep_add {S} a b (f : S -> Res S) s : rep (a + b) f s = (s' <- rep a f s ;; rep b f s').
Proof. revert s. induction a as [|a IH]; intros s; cbn [Nat.add rep bind]; [reflexivity|]. destruct (f s); cbn [bind]; auto. Qed.

Lemma rep_mul {S} a b (f : S -> Res S) s : rep a (fun s => rep b f s) s = rep (a * b) f s.
Proof.
  revert s. induction a as [|a IH]; intros s; cbn [Nat.mul rep]; [reflexivity|]. rewrite rep_add.
  destruct (rep b f s); cbn [bind]; auto.
Qed.

Section Walk.
Variables (lens : list Z) (g : list Z -> list (list Z)) (step : mih * list (list Z) -> Res (mih * list (list Z))).
Hypothesis Hlens : pos_lens lens.
Hypothesis Hstep : forall idx acc, in_box lens idx -> step (mkMih lens idx, acc) = Ok (mkMih lens idx, acc ++ g idx).

Lemma next_index k : mih_incr (mkMih lens (nth_index lens k)) = mkMih lens (nth_index lens (S k)).
Proof. rewrite <- !iterate_new. reflexivity. Qed.

Lemma walk n k acc :
  rep n (fun st => st' <- step st ;; Ok (mih_incr (fst st'), snd st')) (mkMih lens (nth_index lens k), acc) =
  Ok (mkMih lens (nth_index lens (k + n)), acc ++ flat_map g (map (nth_index lens) (seq k n))).
Proof.
  revert k acc. induction n as [|n IH]; intros k acc; cbn [rep seq map flat_map].
  - now rewrite Nat.add_0_r, app_nil_r.
  - rewrite Hstep by now apply nth_index_box. cbn [bind fst snd]. rewrite next_index, IH, <- app_assoc.
    replace (k + S n)%nat with (S k + n)%nat by lia. reflexivity.
Qed.

(* stopping early is no loss when the rest contributes nothing *)
Lemma walk_all n : (n <= Z.to_nat (total lens))%nat ->
  (forall idx, in_box lens idx -> Z.of_nat n <= get1d lens idx -> g idx = []) ->
  flat_map g (map (nth_index lens) (seq 0 n)) = flat_map g (grid lens).
Proof.
  intros Hn Hg. rewrite <- visited_grid by auto. unfold visited.
  replace (Z.to_nat (total lens)) with (n + (Z.to_nat (total lens) - n))%nat by lia.
  rewrite seq_app, map_app, flat_map_app. rewrite <- (app_nil_r (flat_map g _)) at 1. f_equal. symmetry.
  rewrite flat_map_map. rewrite (flat_map_ext_in _ (fun _ => [])).
  - induction (seq (0 + n) _); auto.
  - intros k Hk. apply in_seq in Hk. apply Hg; [now apply nth_index_box|]. rewrite nth_index_get1d by (auto; lia). lia.
Qed.
End Walk.

Lemma new_mih lens : mih_new lens = mkMih lens (nth_index lens 0).
Proof. reflexivity. Qed.

Lemma samples_pos sc : Forall (fun n => 0 <= n) sc -> pos_lens (samples sc).
Proof. intros H. induction H; constructor; auto; lia. Qed.

Lemma cells_2d_ok s0 s1 off : 0 <= s0 -> 0 <= s1 -> cells_2d s0 s1 off = Ok (map (cell [s0; s1] off) (grid [s0; s1])).
Proof.
  intros H0 H1. unfold cells_2d, for_up.
  set (f := fun st => st' <- quad_step s0 s1 off st ;; Ok (mih_incr (fst st'), snd st')).
  rewrite !Z.sub_0_r.
  replace (for_n (Z.to_nat s1) 0 _ _) with (rep (Z.to_nat s1 * Z.to_nat (s0 + 1)) f (mih_new [s0 + 1; s1 + 1], [])).
  2:{ rewrite <- rep_mul. rewrite <- (for_n_rep _ 0). symmetry.
      generalize (mih_new [s0 + 1; s1 + 1], @nil (list Z)). generalize 0 at 1 3. induction (Z.to_nat s1) as [|n IH]; intros z st; cbn [for_n]; [reflexivity|].
      rewrite for_n_rep. destruct (rep (Z.to_nat (s0 + 1)) f st); cbn [bind]; auto. }
  change [s0 + 1; s1 + 1] with (samples [s0; s1]).
  assert (Hp : pos_lens (samples [s0; s1])) by (apply samples_pos; repeat constructor; lia).
  rewrite new_mih. unfold f. rewrite (walk _ (fun idx => if inside [s0; s1] idx then [cell [s0; s1] off idx] else [])); auto.
  - cbn [bind snd app]. f_equal. rewrite walk_all; auto.
    + rewrite flat_map_filter, inside_grid by (repeat constructor; lia). reflexivity.
    + cbn. nia.
    + intros idx Hb. inversion Hb as [|? i ? r Hi Hr]; subst. inversion Hr as [|? j ? r' Hj Hr']; subst. inversion Hr'; subst.
      cbn [samples map]. rewrite !get1d_cons, get1d_nil. intros Hk. cbn [inside].
      assert (j = s1) by nia. subst j. rewrite Z.eqb_refl. cbn [negb]. now rewrite andb_false_r.
  - intros idx acc Hb. inversion Hb as [|? i ? r Hi Hr]; subst. inversion Hr as [|? j ? r' Hj Hr']; subst. inversion Hr'; subst.
    apply quad_ok; lia.
Qed.

Lemma hexa_run s0 s1 s2 off lens : lens = samples [s0; s1; s2] -> 0 <= s0 -> 0 <= s1 -> 0 <= s2 ->
  forall m k acc fuel, Z.of_nat k + Z.of_nat m = total lens - 1 -> (m < fuel)%nat ->
  hexa_loop fuel s0 s1 s2 off (mkMih lens (nth_index lens k), acc) =
  Ok (mkMih lens (nth_index lens (k + m)), acc ++
      flat_map (fun idx => if inside [s0; s1; s2] idx then [cell [s0; s1; s2] off idx] else []) (map (nth_index lens) (seq k m))).
Proof.
  intros El H0 H1 H2.
  assert (Hp : pos_lens lens) by (subst lens; apply samples_pos; repeat constructor; lia).
  induction m as [|m IH]; intros k acc fuel Hk Hf; (destruct fuel as [|fuel]; [lia|]); cbn [hexa_loop fst].
  - unfold mih_get1d, mih_length. cbn [mlen mcur]. rewrite nth_index_get1d by (auto; lia).
    destruct (Z.ltb_spec (Z.of_nat k) (total lens - 1)); [lia|]. cbn [seq map flat_map]. now rewrite Nat.add_0_r, app_nil_r.
  - unfold mih_get1d at 1, mih_length. cbn [mlen mcur]. rewrite nth_index_get1d by (auto; lia).
    destruct (Z.ltb_spec (Z.of_nat k) (total lens - 1)); [|lia].
    assert (E : hexa_step s0 s1 s2 off (mkMih lens (nth_index lens k), acc) = Ok (mkMih lens (nth_index lens k),
       acc ++ (if inside [s0; s1; s2] (nth_index lens k) then [cell [s0; s1; s2] off (nth_index lens k)] else []))).
    { pose proof (nth_index_box lens k Hp) as Hb. destruct (nth_index lens k) as [|i [|j [|l [|? ?]]]]; subst lens; cbn [samples map] in *;
        repeat match goal with H : in_box _ _ |- _ => inversion H; subst; clear H | H : Forall2 _ _ _ |- _ => inversion H; subst; clear H end.
      apply hexa_ok; lia. }
    rewrite E. cbn [bind fst snd]. rewrite next_index, IH by lia. rewrite <- app_assoc.
    replace (S k + m)%nat with (k + S m)%nat by lia. reflexivity.
Qed.

Lemma cells_3d_ok s0 s1 s2 off : 0 <= s0 -> 0 <= s1 -> 0 <= s2 ->
  cells_3d s0 s1 s2 off = Ok (map (cell [s0; s1; s2] off) (grid [s0; s1; s2])).
Proof.
  intros H0 H1 H2. unfold cells_3d. cbv zeta.
  change [s0 + 1; s1 + 1; s2 + 1] with (samples [s0; s1; s2]).
  assert (Hp : pos_lens (samples [s0; s1; s2])) by (apply samples_pos; repeat constructor; lia).
  pose proof (total_pos _ Hp) as Ht.
  rewrite new_mih, (hexa_run s0 s1 s2 off _ eq_refl H0 H1 H2 (Z.to_nat (total (samples [s0; s1; s2]) - 1)) 0)
    by (unfold mih_length; cbn [mlen]; lia).
  cbn [bind snd app]. f_equal. rewrite walk_all; auto.
  - rewrite flat_map_filter, inside_grid by (repeat constructor; lia). reflexivity.
  - lia.
  - intros idx Hb Hk. pose proof (get1d_range _ _ Hb).
    assert (E : idx = [s0; s1; s2]).
    { apply (get1d_inj (samples [s0; s1; s2])); auto; [repeat constructor; lia|].
      assert (get1d (samples [s0; s1; s2]) [s0; s1; s2] = total (samples [s0; s1; s2]) - 1); [|lia].
      cbn [samples map]. rewrite !get1d_cons, get1d_nil. cbn. ring. }
    subst idx. cbn [inside]. now rewrite Z.eqb_refl.
Qed.

Lemma grid_1 n : grid [n] = map (fun i => [i]) (zseq 0 (Z.to_nat n)).
Proof. cbn [grid flat_map]. now rewrite app_nil_r. Qed.

Lemma add_cells_ok sc off : (1 <= length sc <= 3)%nat -> Forall (fun n => 0 <= n) sc ->
  add_cells sc off (zlen sc) = Ok (map (cell sc off) (grid sc)).
Proof.
  intros Hl H. destruct sc as [|s0 [|s1 [|s2 [|? ?]]]]; cbn [length] in Hl; try lia;
    repeat match goal with H : Forall _ (_ :: _) |- _ => inversion H; subst; clear H end.
  - change (add_cells [s0] off (zlen [s0])) with (Ok (cells_1d s0 off)). f_equal. unfold cells_1d. rewrite grid_1, map_map.
    apply map_ext. intros i. unfold cell. cbn [length corners map samples map2 combine fst snd position zlen].
    apply f_equal2; [reflexivity|]. repeat (apply f_equal2; [ring|]). reflexivity.
  - change (add_cells [s0; s1] off (zlen [s0; s1])) with (cells_2d s0 s1 off). now apply cells_2d_ok.
  - change (add_cells [s0; s1; s2] off (zlen [s0; s1; s2])) with (cells_3d s0 s1 s2 off). now apply cells_3d_ok.
Qed.

(* ---- counts ---- *)
Lemma number_of_cells_size sc : number_of_cells sc = size sc.
Proof.
  unfold number_of_cells, size. assert (E : forall a, fold_left Z.mul sc a = a * fold_right Z.mul 1 sc); [|rewrite E; lia].
  induction sc as [|x sc IH]; intros a; cbn [fold_left fold_right]; [lia|]. rewrite IH. lia.
Qed.

Lemma count_cells_ok sc : (1 <= length sc <= 3)%nat -> count_cells (zlen sc) sc = Ok (size sc).
Proof.
  intros Hl. rewrite <- number_of_cells_size. destruct sc as [|s0 [|s1 [|s2 [|? ?]]]]; cbn [length] in Hl; try lia; reflexivity.
Qed.
Lemma count_points_ok sc : (1 <= length sc <= 3)%nat -> count_points (zlen sc) sc = Ok (size (samples sc)).
Proof.
  intros Hl. rewrite <- number_of_cells_size. destruct sc as [|s0 [|s1 [|s2 [|? ?]]]]; cbn [length] in Hl; try lia; reflexivity.
Qed.
Lemma add_cell_types_ok sc : (1 <= length sc <= 3)%nat ->
  add_cell_types sc (zlen sc) = Ok (repeat (vtk_type (length sc)) (Z.to_nat (size sc))).
Proof.
  intros Hl. rewrite <- number_of_cells_size. destruct sc as [|s0 [|s1 [|s2 [|? ?]]]]; cbn [length] in Hl; try lia; reflexivity.
Qed.
Lemma cell_length sc off c : (1 <= length sc <= 3)%nat ->
  zlen (cell sc off c) = (if zlen sc =? 1 then 3 else if zlen sc =? 2 then 5 else 9).
Proof. intros Hl. destruct sc as [|s0 [|s1 [|s2 [|? ?]]]]; cbn [length] in Hl; try lia; reflexivity. Qed.
