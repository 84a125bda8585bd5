(* Sums over boxes of multi-indices of products of one-dimensional factors. *)
From Coq Require Import ZArith List Lia Reals Lra Permutation.
From Verif Require Import Base BaseFacts RSum MultiIndex MultiIndexSpec MultiIndexFacts.
Import ListNotations.
Open Scope R_scope.

(* sum over i_0 in l_0, i_1 in l_1, ... of f_0 i_0 * f_1 i_1 * ... * c [i_0; i_1; ...] *)
Fixpoint tsum (fs : list (Z -> R)) (ls : list (list Z)) (c : list Z -> R) : R :=
  match fs, ls with
  | f :: fs', l :: ls' => lsum (fun i => f i * tsum fs' ls' (fun r => c (i :: r))) l
  | _, _ => c []
  end.

(* all multi-indices with entries from the given lists *)
Fixpoint boxl (ls : list (list Z)) : list (list Z) :=
  match ls with
  | [] => [[]]
  | l :: ls' => flat_map (fun i => map (cons i) (boxl ls')) l
  end.

Fixpoint prodf (fs : list (Z -> R)) (idx : list Z) : R :=
  match fs, idx with
  | f :: fs', i :: idx' => f i * prodf fs' idx'
  | _, _ => 1
  end.

Lemma boxl_In ls idx : In idx (boxl ls) <-> Forall2 (fun l i => In i l) ls idx.
Proof.
  revert idx; induction ls as [|l ls IH]; intros idx; cbn [boxl].
  - split; [intros [<-|[]]; constructor | intros H; inversion H; now left].
  - rewrite in_flat_map. split.
    + intros (i & Hi & H). apply in_map_iff in H as (r & <- & Hr). constructor; auto. now apply IH.
    + intros H; inversion H; subst. exists y. split; auto. apply in_map. now apply IH.
Qed.

Lemma boxl_length ls idx : In idx (boxl ls) -> length idx = length ls.
Proof. rewrite boxl_In. intros H. induction H; cbn; auto. Qed.

Lemma NoDup_app_intro {A} (l1 l2 : list A) : NoDup l1 -> NoDup l2 -> (forall x, In x l1 -> ~ In x l2) -> NoDup (l1 ++ l2).
Proof.
  induction 1 as [|a l1 Ha H IH]; intros H2 Hd; cbn; auto. constructor.
  - rewrite in_app_iff. intros [C|C]; [contradiction|]. apply (Hd a); [now left | auto].
  - apply IH; auto. intros x Hx. apply Hd. now right.
Qed.

Lemma boxl_NoDup ls : Forall (fun l => NoDup l) ls -> NoDup (boxl ls).
Proof.
  induction 1 as [|l ls Hl H IH]; cbn [boxl]; [repeat constructor; auto|].
  induction Hl as [|i l Hi Hl IHl]; cbn [flat_map]; [constructor|].
  apply NoDup_app_intro; auto.
  - apply FinFun.Injective_map_NoDup; auto. intros a b E. now inversion E.
  - intros x H1 H2. apply in_map_iff in H1 as (r & <- & _). apply in_flat_map in H2 as (j & Hj & H2).
    apply in_map_iff in H2 as (r' & E & _). inversion E; subst. contradiction.
Qed.

(* the multi-indices visited by a fresh handler, up to order *)
Lemma visited_perm lens : pos_lens lens ->
  Permutation (visited lens) (boxl (map (fun n => zseq 0 (Z.to_nat n)) lens)).
Proof.
  intros H. apply NoDup_Permutation.
  - now apply visited_NoDup.
  - apply boxl_NoDup. apply Forall_forall. intros l Hl. apply in_map_iff in Hl as (n & <- & _). apply zseq_NoDup.
  - intros idx. rewrite visited_In by auto. rewrite boxl_In. unfold in_box.
    clear H. revert idx. induction lens as [|n lens IH]; intros idx; cbn [map].
    + split; intros H; inversion H; constructor.
    + split; intros H; inversion H; subst; constructor; try (now apply IH).
      * apply zseq_In. lia.
      * apply zseq_In in H2. lia.
Qed.

Lemma tsum_boxl fs ls c : length fs = length ls ->
  lsum (fun idx => prodf fs idx * c idx) (boxl ls) = tsum fs ls c.
Proof.
  revert ls c; induction fs as [|f fs IH]; intros [|l ls] c Hl; try discriminate; cbn [boxl tsum].
  - cbn. lra.
  - rewrite lsum_flat_map. apply lsum_ext. intros i _. rewrite lsum_map. rewrite <- (IH ls (fun r => c (i :: r))) by (cbn in Hl; lia).
    rewrite <- lsum_scal. apply lsum_ext. intros r _. cbn [prodf]. ring.
Qed.

Lemma tsum_ext fs fs' ls c c' : Forall2 (fun l p => forall i, In i l -> fst p i = snd p i) ls (combine fs fs') ->
  length fs = length ls -> length fs' = length ls ->
  (forall idx, In idx (boxl ls) -> c idx = c' idx) -> tsum fs ls c = tsum fs' ls c'.
Proof.
  revert fs fs' c c'; induction ls as [|l ls IH]; intros [|f fs] [|f' fs'] c c' H H1 H2 Hc; try discriminate; cbn [tsum].
  - apply Hc. now left.
  - cbn [combine] in H. inversion H; subst. apply lsum_ext. intros i Hi. cbn [fst snd] in *. rewrite H5 by auto. f_equal.
    apply IH; auto. intros r Hr. apply Hc. cbn [boxl]. apply in_flat_map. exists i. split; auto. now apply in_map.
Qed.

Lemma tsum_ext_c fs ls c c' : length fs = length ls ->
  (forall idx, In idx (boxl ls) -> c idx = c' idx) -> tsum fs ls c = tsum fs ls c'.
Proof.
  revert ls c c'; induction fs as [|f fs IH]; intros [|l ls] c c' H Hc; try discriminate; cbn [tsum].
  - apply Hc. now left.
  - apply lsum_ext. intros i Hi. f_equal. apply IH; [cbn in H; lia|].
    intros r Hr. apply Hc. cbn [boxl]. apply in_flat_map. exists i. split; auto. now apply in_map.
Qed.

Lemma tsum_plus fs ls c c' : tsum fs ls (fun i => c i + c' i) = tsum fs ls c + tsum fs ls c'.
Proof.
  revert ls c c'; induction fs as [|f fs IH]; intros [|l ls] c c'; cbn [tsum]; auto.
  rewrite <- lsum_plus. apply lsum_ext. intros i _. rewrite (IH ls (fun r => c (i :: r)) (fun r => c' (i :: r))). ring.
Qed.

Lemma tsum_scal fs ls a c : tsum fs ls (fun i => a * c i) = a * tsum fs ls c.
Proof.
  revert ls c; induction fs as [|f fs IH]; intros [|l ls] c; cbn [tsum]; auto.
  rewrite <- lsum_scal. apply lsum_ext. intros i _. rewrite (IH ls (fun r => c (i :: r))). ring.
Qed.

Lemma tsum_minus fs ls c c' : tsum fs ls (fun i => c i - c' i) = tsum fs ls c - tsum fs ls c'.
Proof.
  assert (E : tsum fs ls (fun i => c i - c' i) = tsum fs ls (fun i => c i + (-1) * c' i)).
  { f_equal. apply FunctionalExtensionality.functional_extensionality. intros; ring. }
  rewrite E, tsum_plus, tsum_scal. ring.
Qed.

Lemma tsum_lsum {A} fs ls (c : A -> list Z -> R) (l : list A) :
  tsum fs ls (fun i => lsum (fun a => c a i) l) = lsum (fun a => tsum fs ls (c a)) l.
Proof.
  revert ls c; induction fs as [|f fs IH]; intros [|k ls] c; cbn [tsum]; auto.
  rewrite lsum_swap. apply lsum_ext. intros i _. rewrite (IH ls (fun a r => c a (i :: r))).
  now rewrite lsum_scal.
Qed.

Lemma tsum_nonneg fs ls c : length fs = length ls ->
  Forall2 (fun f l => forall i, In i l -> 0 <= f i) fs ls ->
  (forall idx, In idx (boxl ls) -> 0 <= c idx) -> 0 <= tsum fs ls c.
Proof.
  intros Hlen H; clear Hlen. revert c; induction H as [|f l fs ls Hf H IH]; intros c Hc; cbn [tsum].
  - apply Hc. now left.
  - apply lsum_nonneg. intros i Hi. apply Rmult_le_pos; [auto|]. apply IH. intros r Hr. apply Hc.
    cbn [boxl]. apply in_flat_map. exists i. split; auto. now apply in_map.
Qed.

Lemma tsum_le fs ls c c' : Forall2 (fun f l => forall i, In i l -> 0 <= f i) fs ls ->
  (forall idx, In idx (boxl ls) -> c idx <= c' idx) -> tsum fs ls c <= tsum fs ls c'.
Proof.
  intros H Hc. pose proof (tsum_nonneg fs ls (fun i => c' i - c i)) as P.
  rewrite tsum_minus in P. assert (length fs = length ls) by (clear - H; induction H; cbn; auto).
  specialize (P H0 H). assert (0 <= tsum fs ls c' - tsum fs ls c); [|lra]. apply P. intros idx Hi. specialize (Hc idx Hi). lra.
Qed.

(* a sum whose factors sum to one in every direction *)
Lemma tsum_const fs ls a : Forall2 (fun f l => lsum f l = 1) fs ls -> tsum fs ls (fun _ => a) = a.
Proof.
  induction 1 as [|f l fs ls Hf H IH]; cbn [tsum]; auto.
  rewrite (lsum_ext _ (fun i => f i * a)) by (intros; now rewrite IH). rewrite lsum_scal_r, Hf. ring.
Qed.

(* enlarging the ranges by indices where the factors vanish *)
Lemma tsum_range fs ls ls' c : Forall2 (fun f p => forall g : Z -> R, lsum (fun i => f i * g i) (fst p) = lsum (fun i => f i * g i) (snd p)) fs (combine ls ls') ->
  length ls = length fs -> length ls' = length fs -> tsum fs ls c = tsum fs ls' c.
Proof.
  revert ls ls' c; induction fs as [|f fs IH]; intros [|l ls] [|l' ls'] c H H1 H2; try discriminate; cbn [tsum]; auto.
  cbn [combine] in H. inversion H; subst. cbn [fst snd] in *.
  rewrite H5. apply lsum_ext. intros i _. f_equal. apply IH; auto.
Qed.

Lemma lsum_single_factor (f : Z -> R) l (g : Z -> R) i0 : NoDup l -> In i0 l -> (forall i, In i l -> i <> i0 -> f i = 0) ->
  lsum (fun i => f i * g i) l = f i0 * g i0.
Proof.
  intros H1 H2 H3. apply (lsum_single (fun i => f i * g i) l i0); auto. intros b Hb Hne. rewrite H3 by auto. ring.
Qed.

(* factors concentrated in one multi-index *)
Lemma tsum_corner fs ls c idx0 :
  Forall2 (fun fl i0 => In i0 (snd fl) /\ NoDup (snd fl) /\ fst fl i0 = 1 /\ forall i, In i (snd fl) -> i <> i0 -> fst fl i = 0)
    (combine fs ls) idx0 -> length fs = length ls -> tsum fs ls c = c idx0.
Proof.
  revert ls c idx0; induction fs as [|f fs IH]; intros [|l ls] c idx0 H Hl; try discriminate; cbn [combine tsum] in *.
  - inversion H; reflexivity.
  - inversion H as [|x i0 y r (H1 & H2 & H3 & H4) Hr]; subst. cbn [fst snd] in *.
    rewrite (lsum_single_factor f l _ i0) by auto. rewrite H3, Rmult_1_l. apply (IH ls (fun r => c (i0 :: r))); auto.
Qed.

(* one direction singled out *)
Lemma tsum_isolate fs ls c d : (d < length fs)%nat -> length fs = length ls ->
  tsum fs ls c =
  lsum (fun i => nth d fs (fun _ => 0) i *
                 tsum (remove_at d fs) (remove_at d ls) (fun r => c (firstn d r ++ i :: skipn d r))) (nth d ls []).
Proof.
  revert ls c d; induction fs as [|f fs IH]; intros [|l ls] c d Hd Hl; cbn in Hd, Hl; try lia.
  destruct d as [|d].
  - reflexivity.
  - cbn [tsum nth remove_at]. transitivity (lsum (fun i => lsum (fun j => f i * (nth d fs (fun _ => 0) j *
       tsum (remove_at d fs) (remove_at d ls) (fun r => c (i :: firstn d r ++ j :: skipn d r)))) (nth d ls [])) l).
    + apply lsum_ext. intros i _. rewrite lsum_scal. f_equal. apply (IH ls (fun r => c (i :: r)) d); lia.
    + rewrite lsum_swap. apply lsum_ext. intros j _. rewrite <- lsum_scal. apply lsum_ext. intros i _.
      cbn [firstn skipn app]. ring.
Qed.

(* r with i inserted at position d *)
Definition insat (d : nat) (i : Z) (r : list Z) : list Z := firstn d r ++ i :: skipn d r.

Lemma remove_at_upd {A} d (l : list A) a : remove_at d (upd l d a) = remove_at d l.
Proof. revert d; induction l as [|x l IH]; intros [|d]; cbn; auto. now rewrite IH. Qed.

Lemma tsum_collect fs ls c d : (d < length fs)%nat -> length fs = length ls ->
  tsum fs ls c = tsum (remove_at d fs) (remove_at d ls)
    (fun r => lsum (fun i => nth d fs (fun _ => 0) i * c (insat d i r)) (nth d ls [])).
Proof.
  intros Hd Hl. rewrite tsum_lsum. rewrite (tsum_isolate fs ls c d) by auto.
  apply lsum_ext. intros i _. now rewrite tsum_scal.
Qed.

(* changing the factor and the coefficients in one direction *)
Lemma tsum_dir fs ls c c' d f' l' : (d < length fs)%nat -> length fs = length ls ->
  (forall r, In r (boxl (remove_at d ls)) ->
     lsum (fun i => nth d fs (fun _ => 0) i * c (insat d i r)) (nth d ls []) =
     lsum (fun j => f' j * c' (insat d j r)) l') ->
  tsum fs ls c = tsum (upd fs d f') (upd ls d l') c'.
Proof.
  intros Hd Hl H.
  rewrite (tsum_collect fs ls c d) by auto.
  rewrite (tsum_collect (upd fs d f') (upd ls d l') c' d) by (rewrite ?upd_length; auto).
  rewrite !nth_upd_same by lia. rewrite !remove_at_upd.
  apply tsum_ext_c; [rewrite !remove_at_length by lia; lia | exact H].
Qed.

Lemma insat_length d i r : (d <= length r)%nat -> length (insat d i r) = S (length r).
Proof. intros H. unfold insat. rewrite app_length. cbn. rewrite firstn_length, skipn_length. lia. Qed.

Lemma insat_upd d i j r : (d <= length r)%nat -> upd (insat d i r) d j = insat d j r.
Proof.
  unfold insat. revert r; induction d as [|d IH]; intros r H; cbn; auto.
  destruct r as [|x r]; cbn in *; [lia|]. f_equal. apply IH. lia.
Qed.

Lemma insat_nth d i r a : (d <= length r)%nat -> nth d (insat d i r) a = i.
Proof.
  unfold insat. revert r; induction d as [|d IH]; intros r H; cbn; auto.
  destruct r as [|x r]; cbn in *; [lia|]. apply IH. lia.
Qed.

Lemma insat_remove d i r : (d <= length r)%nat -> remove_at d (insat d i r) = r.
Proof.
  unfold insat. revert r; induction d as [|d IH]; intros r H; cbn; auto.
  destruct r as [|x r]; cbn in *; [lia|]. f_equal. apply IH. lia.
Qed.

Lemma remove_insat d idx i : (d < length idx)%nat -> nth d idx 0%Z = i -> insat d i (remove_at d idx) = idx.
Proof.
  unfold insat. revert idx; induction d as [|d IH]; intros [|x idx] H E; cbn in *; try lia; subst; auto.
  f_equal. apply IH; auto; lia.
Qed.

(* ---- loops over a fresh multi-index handler ---- *)
Section Loops.
Context {St : Type}.
Open Scope Z_scope.

Lemma mih_for_foldM n h (body : mih -> St -> Res St) s :
  mih_for n h body s = foldM (fun s h => body h s) (map (fun k => iterate k mih_incr h) (seq 0 n)) s.
Proof.
  revert h s; induction n as [|n IH]; intros h s; cbn [mih_for seq map foldM]; auto.
  cbn [iterate]. destruct (body h s); cbn [bind]; auto. rewrite IH. rewrite <- seq_shift, map_map.
  f_equal. apply map_ext. intros k. symmetry. apply iterate_succ_r.
Qed.

Lemma iterate_new lens k : iterate k mih_incr (mih_new lens) = mkMih lens (nth_index lens k).
Proof.
  unfold nth_index. pose proof (iter_incr_mlen k (mih_new lens)) as E. cbn in E.
  destruct (iterate k mih_incr (mih_new lens)) as [a b]. cbn in *. now subst.
Qed.

Lemma foldM_map {A B} (f : St -> B -> Res St) (g : A -> B) l s : foldM f (map g l) s = foldM (fun s a => f s (g a)) l s.
Proof. revert s; induction l as [|a l IH]; intros s; cbn; auto. destruct (f s (g a)); cbn; auto. Qed.

Lemma mih_loop_visited lens (body : mih -> St -> Res St) s :
  mih_loop lens body s = foldM (fun s idx => body (mkMih lens idx) s) (visited lens) s.
Proof.
  unfold mih_loop, visited. rewrite mih_for_foldM, !foldM_map.
  set (l := seq 0 _). clearbody l. revert s; induction l as [|k l IH]; intros s; cbn [foldM]; auto.
  rewrite iterate_new. destruct (body _ s); cbn [bind]; auto.
Qed.

(* the loop from the second index on *)
Lemma mih_loop_tail lens (body : mih -> St -> Res St) s :
  mih_for (Z.to_nat (total lens - 1)) (mih_incr (mih_new lens)) body s =
  foldM (fun s idx => body (mkMih lens idx) s) (tl (visited lens)) s.
Proof.
  unfold visited. rewrite mih_for_foldM, foldM_map.
  assert (E : tl (map (nth_index lens) (seq 0 (Z.to_nat (total lens)))) =
              map (nth_index lens) (map S (seq 0 (Z.to_nat (total lens - 1))))).
  { rewrite seq_shift. destruct (Z.to_nat (total lens)) eqn:En; cbn [seq map tl].
    - replace (Z.to_nat (total lens - 1)) with 0%nat by lia. reflexivity.
    - replace (Z.to_nat (total lens - 1)) with n by lia. reflexivity. }
  rewrite E, !foldM_map.
  set (l := seq 0 _). clearbody l. revert s; induction l as [|k l IH]; intros s; cbn [foldM]; auto.
  rewrite <- iterate_succ_r, iterate_new. destruct (body _ s); cbn [bind]; auto.
Qed.
End Loops.
