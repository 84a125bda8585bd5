(* GetBezierSegment and SetNewBezierSegmentControlPoints: what is read and what is written (C83). *)
From Coq Require Import ZArith List Bool Lia Reals Lra.
From Verif Require Import Base BaseFacts RSum MultiIndex MultiIndexSpec MultiIndexFacts TensorSum
  KnotVec KnotVecSpec BasisSpec Basis VecUtils Spaces SpacesSpec
  SpacesFacts SplineEval SplineEdit SplineSpec EvalFacts EvalThms PhysFacts AdjustFacts InsertFacts RemoveFacts RemoveSpec
  SplineDegree DegreeSpec DegreeFacts.
Import ListNotations.
Open Scope Z_scope.

Section Segments.
Variable dz : R -> R.
Local Notation F := (Rops dz).
Implicit Types s : spline F.

Definition hpoint s (idx : list Z) : list R := map (hpart s idx) (zseq 0 (Z.to_nat (ph_dim (sp_ph s) + 1))).

Lemma hpoint_length s idx : 1 <= ph_dim (sp_ph s) -> zlen (hpoint s idx) = ph_dim (sp_ph s) + 1.
Proof. intros H. unfold hpoint, zlen. rewrite map_length, zseq_length. lia. Qed.
Lemma hpoint_nth s idx c : 0 <= c <= ph_dim (sp_ph s) -> nth (Z.to_nat c) (hpoint s idx) 0%R = hpart s idx c.
Proof.
  intros H. unfold hpoint. rewrite (nth_map_in _ _ _ 0) by (rewrite zseq_length; lia). f_equal. rewrite zseq_nth by lia. lia.
Qed.

Definition lines_in s (d : nat) : Z := total (remove_at d (npts_of s)).

Lemma lines_ok s d : well_formed s -> (d < length (npts_of s))%nat -> num_lines s d = Ok (lines_in s d) /\ 1 <= lines_in s d.
Proof.
  intros Hwf Hd. pose proof (wf_phys dz s Hwf) as (Hp & H1 & H2 & _). unfold num_lines, num_control_points, lines_in, npts_of in *. rnorm. rewrite H2.
  pose proof (pos_lens_nth _ _ Hp Hd) as Hn. pose proof (total_remove_at _ _ Hd) as Ht.
  assert (Hpos : 1 <= total (remove_at d (ph_npts (sp_ph s)))).
  { apply total_pos. clear - Hp. unfold pos_lens in *. revert d. induction Hp; intros [|d]; cbn; auto; constructor; auto. }
  unfold idiv at 1. destruct (Z.eqb_spec (ph_dim (sp_ph s)) 0); [lia|]. rewrite Z.mul_comm, Z.quot_mul by lia. cbn [bind].
  rewrite (dget_nth _ d 0) by auto. cbn [bind]. unfold idiv. destruct (Z.eqb_spec (nth d (ph_npts (sp_ph s)) 0) 0); [lia|].
  rewrite <- Ht, Z.mul_comm, Z.quot_mul by lia. split; auto.
Qed.

Theorem bezier_segment_ok s d p k : well_formed s -> (d < length (npts_of s))%nat -> nth_error (degs_of s) d = Some p -> 1 <= p ->
  0 <= k -> (k + 1) * p + 1 <= nth d (npts_of s) 0 ->
  exists cps, bezier_segment s d k = Ok cps /\ segment_shape p (lines_in s d) (ph_dim (sp_ph s) + 1) cps /\
    forall idx c, in_box (npts_of s) idx -> k * p <= nth d idx 0 <= (k + 1) * p -> 0 <= c <= ph_dim (sp_ph s) ->
      value cps p (line (npts_of s) d idx) (nth d idx 0 - k * p) c = hpart s idx c.
Proof.
  intros Hwf Hd Ed Hp Hk Hn. pose proof (wf_phys dz s Hwf) as (Hpl & Hsz). pose proof Hsz as (H1 & H2 & _).
  destruct (lines_ok s d Hwf Hd) as [El Hl]. set (L := lines_in s d) in *. set (D := ph_dim (sp_ph s)) in *.
  assert (Edd : sp_deg s d = Ok p) by (unfold sp_deg, dget; fold (degs_of s); now rewrite Ed).
  unfold bezier_segment. rewrite Edd. cbn [bind]. rewrite El. cbn [bind].
  unfold vmake. assert (E0 : (p + 1) * L <? 0 = false) by (apply Z.ltb_ge; nia). rewrite E0. cbn [bind]. clear E0.
  assert (S0 : seg ((p + 1) * L) (D + 1) (repeat (repeat 0%R (Z.to_nat (sp_pdim s + 1))) (Z.to_nat ((p + 1) * L)))).
  { unfold sp_pdim. fold D. replace (D + 1) with (Z.of_nat (Z.to_nat (D + 1))) at 1 by lia. apply seg_repeat. nia. }
  set (off := k * p). set (last := (k + 1) * p - 1).
  set (ok := fun idx (cps : list (list R)) => pt cps (slot (npts_of s) d off last idx) = hpoint s idx).
  set (Inv := fun (n : nat) (cps : list (list R)) => seg ((p + 1) * L) (D + 1) cps /\
    forall idx, in_box (npts_of s) idx -> off <= nth d idx 0 <= last + 1 -> get1d (npts_of s) idx < Z.of_nat n -> ok idx cps).
  fold (npts_of s).
  match goal with |- context [mih_loop _ ?b ?i] => destruct (mih_loop_inv (npts_of s) Inv b i) as (cps & E & (I1 & I2)) end.
  - intros n cps Hlt (I1 & I2). cbn [mcur]. pose proof (nth_index_box (npts_of s) n Hpl) as Hb. set (idx := nth_index (npts_of s) n) in *.
    assert (Eq : get1d (npts_of s) idx = Z.of_nat n) by (apply nth_index_get1d; auto).
    rewrite (dget_nth idx d 0) by (rewrite (in_box_length _ _ Hb); auto). cbn [bind].
    assert (Hcase : forall idx', in_box (npts_of s) idx' -> get1d (npts_of s) idx' < Z.of_nat (S n) -> idx' = idx \/ get1d (npts_of s) idx' < Z.of_nat n).
    { intros idx' B1 Hlt'. destruct (Z.eq_dec (get1d (npts_of s) idx') (Z.of_nat n)); [left; apply (get1d_inj (npts_of s)); auto; lia | right; lia]. }
    rewrite Z.geb_leb. replace (k * (p + 1) - k) with off by (unfold off; lia). replace ((k + 1) * (p + 1) - k) with (last + 2) by (unfold last; lia).
    destruct (Z.leb_spec off (nth d idx 0)) as [C1|C1]; [destruct (Z.ltb_spec (nth d idx 0) (last + 2)) as [C2|C2]|]; cbn [andb].
    + pose proof (get1d_range _ _ Hb) as Hr.
      assert (Ew : get_weight (F := F) (sp_ph s) idx = Ok (weight s idx)).
      { rewrite weight_p. apply (get_weight_at dz (sp_ph s) (total (npts_of s))); auto. }
      assert (Ec : get_control_point (F := F) (sp_ph s) idx = Ok (map (coordinate s idx) (zseq 0 (Z.to_nat D)))).
      { rewrite (get_cp_at dz (sp_ph s) (total (npts_of s))) by auto. f_equal. apply map_ext. intros c. now rewrite coordinate_p. }
      step Ew. step Ec. rewrite line_extract by auto.
      assert (Em : (nth d idx 0 + k) mod (p + 1) = nth d idx 0 - off).
      { replace (nth d idx 0 + k) with (nth d idx 0 - off + k * (p + 1)) by (unfold off; lia). rewrite Z.mod_add by lia. apply Z.mod_small. unfold last, off in *. lia. }
      rewrite Em. replace (nth d idx 0 - off + line (npts_of s) d idx * (p + 1)) with (slot (npts_of s) d off last idx).
      2:{ unfold slot. replace (last - off + 2) with (p + 1) by (unfold last, off; lia). lia. }
      assert (Eh : map (fun x => (x * weight s idx)%R) (map (coordinate s idx) (zseq 0 (Z.to_nat D))) ++ [weight s idx] = hpoint s idx).
      { unfold hpoint. fold D. replace (Z.to_nat (D + 1)) with (Z.to_nat D + 1)%nat by lia. rewrite zseq_app, map_app, map_map. f_equal.
        - apply map_ext_in. intros c Hc. apply zseq_In in Hc. unfold hpart. fold D. destruct (Z.ltb_spec c D); [ring | lia].
        - cbn [zseq map]. unfold hpart. fold D. destruct (Z.ltb_spec (0 + Z.of_nat (Z.to_nat D)) D); [lia | reflexivity]. }
      rnorm. cbn [nmul Rops]. rewrite Eh.
      pose proof (slot_range (npts_of s) d off last idx Hb ltac:(lia)) as Hsr.
      destruct (seg_set _ _ cps (slot (npts_of s) d off last idx) (hpoint s idx) I1) as (cps' & Es & Sg & P1 & P2).
      { replace (last - off + 2) with (p + 1) in Hsr by (unfold last, off; lia). unfold L, lines_in. lia. }
      { now apply hpoint_length. }
      exists cps'. split; [exact Es|]. split; [exact Sg|]. intros idx' B' R' Hlt'. unfold ok.
      destruct (Hcase idx' B' Hlt') as [->|C3]; [exact P1|].
      rewrite P2; [now apply I2 | |].
      * pose proof (slot_range (npts_of s) d off last idx' B' ltac:(lia)). lia.
      * intros Es'. apply (slot_inj (npts_of s) d off last idx' idx) in Es'; auto; try lia. subst idx'. lia.
    + exists cps. split; [reflexivity|]. split; [auto|]. intros idx' B' R' Hlt'. destruct (Hcase idx' B' Hlt') as [->|C3]; [lia|]. now apply I2.
    + exists cps. split; [reflexivity|]. split; [auto|]. intros idx' B' R' Hlt'. destruct (Hcase idx' B' Hlt') as [->|C3]; [lia|]. now apply I2.
  - split; [exact S0|]. intros idx B _ Hlt. pose proof (get1d_range _ _ B). lia.
  - exists cps. split; [exact E|]. split.
    + destruct I1 as [Z1 Z2]. split; [rewrite Z1; lia | exact Z2].
    + intros idx c B Hr Hc. pose proof (get1d_range _ _ B) as Hg. specialize (I2 idx B ltac:(unfold off, last; lia) ltac:(lia)). unfold ok in I2.
      rewrite <- (hpoint_nth s idx c) by auto. rewrite <- I2. unfold value, pt. do 3 f_equal. unfold slot.
      replace (last - off + 2) with (p + 1) by (unfold last, off; lia). unfold off. lia.
Qed.

(* ---- writing ---- *)
(* the segment of a point and its place there *)
Definition seg_of (q n : Z) (i : Z) : Z := Z.min (i / q) (n - 1).

Theorem set_segments_ok s d q n (segs : list (list (list R))) : phys_ok dz (sp_ph s) -> (d < length (npts_of s))%nat ->
  nth_error (degs_of s) d = Some q -> 1 <= q -> 1 <= n < 2 ^ 31 -> nth d (npts_of s) 0 = n * q + 1 -> zlen segs = n ->
  Forall (segment_shape q (lines_in s d) (ph_dim (sp_ph s) + 1)) segs ->
  exists s', set_segments s d segs = Ok s' /\ sp_ps s' = sp_ps s /\ ph_dim (sp_ph s') = ph_dim (sp_ph s) /\ npts_of s' = npts_of s /\
    is_weighted dz (sp_ph s') = is_weighted dz (sp_ph s) /\ phys_ok dz (sp_ph s') /\
    forall idx, in_box (npts_of s) idx ->
      let k := seg_of q n (nth d idx 0) in
      let h := fun c => value (nth (Z.to_nat k) segs []) q (line (npts_of s) d idx) (nth d idx 0 - k * q) c in
      (is_weighted dz (sp_ph s) = true -> weight s' idx = h (ph_dim (sp_ph s))) /\
      forall c, 0 <= c < ph_dim (sp_ph s) -> coordinate s' idx c = ndiv (n := F) (h c) (h (ph_dim (sp_ph s))).
Proof.
  intros (Hpl & Hsz) Hd Ed Hq Hn Hnd Hls Hsh. pose proof Hsz as (H1 & H2 & _). set (D := ph_dim (sp_ph s)) in *. set (L := lines_in s d) in *.
  assert (Edd : sp_deg s d = Ok q) by (unfold sp_deg, dget; fold (degs_of s); now rewrite Ed).
  unfold set_segments. rewrite Edd. cbn [bind]. fold (npts_of s) in Hpl, Hsz |- *.
  set (hv := fun idx c => value (nth (Z.to_nat (seg_of q n (nth d idx 0))) segs []) q (line (npts_of s) d idx) (nth d idx 0 - seg_of q n (nth d idx 0) * q) c).
  set (good := fun idx (ph : phys F) => (is_weighted dz (sp_ph s) = true -> wat dz ph (get1d (npts_of s) idx) = hv idx D) /\
     forall c, 0 <= c < D -> cpat dz ph (get1d (npts_of s) idx) c = ndiv (n := F) (hv idx c) (hv idx D)).
  set (Inv := fun (m : nat) (ph : phys F) => ph_dim ph = D /\ ph_npts ph = npts_of s /\ is_weighted dz ph = is_weighted dz (sp_ph s) /\ sized dz ph (total (npts_of s)) /\
    forall idx, in_box (npts_of s) idx -> get1d (npts_of s) idx < Z.of_nat m -> good idx ph).
  match goal with |- context [mih_loop _ ?b ?i] => destruct (mih_loop_inv (npts_of s) Inv b i) as (ph' & E & (I0 & I1 & I2 & I3 & I4)) end.
  - intros m ph Hlt (I0 & I1 & I2 & I3 & I4). cbn [mcur]. pose proof (nth_index_box (npts_of s) m Hpl) as Hb. set (idx := nth_index (npts_of s) m) in *.
    assert (Eq : get1d (npts_of s) idx = Z.of_nat m) by (apply nth_index_get1d; auto).
    rewrite (dget_nth idx d 0) by (rewrite (in_box_length _ _ Hb); auto). cbn [bind].
    pose proof (in_box_nth _ _ d Hb Hd) as Hi. rewrite Hnd in Hi. set (i := nth d idx 0) in *.
    replace (q + 1 - 1) with q by lia. unfold idiv. destruct (Z.eqb_spec q 0); [lia|]. cbn [bind].
    rewrite Z.quot_div_nonneg, Z.rem_mod_nonneg by lia. rnorm. rewrite Hls.
    assert (Eu : u64 (n - 1) = n - 1) by (unfold u64; apply Z.mod_small; lia). rewrite Eu. rewrite Z.gtb_ltb.
    assert (Hdq : 0 <= i / q <= n) by (split; [apply Z.div_pos; lia | apply Z.div_le_upper_bound; lia]).
    pose proof (Z.div_mod i q ltac:(lia)) as DM. pose proof (Z.mod_pos_bound i q ltac:(lia)) as MB.
    set (k := seg_of q n i).
    assert (Ek : (if n - 1 <? i / q then i / q - 1 else i / q) = k /\ (if n - 1 <? i / q then q else i mod q) = i - k * q /\ 0 <= k < n /\ 0 <= i - k * q <= q).
    { unfold k, seg_of. destruct (Z.ltb_spec (n - 1) (i / q)) as [C|C].
      - assert (i / q = n) by lia. assert (i = n * q) by nia. rewrite Z.min_r by lia. repeat split; try lia; nia.
      - rewrite Z.min_l by lia. repeat split; try lia; nia. }
    destruct Ek as (Ek1 & Ek2 & Hk & Hj). rewrite Ek1, Ek2.
    rewrite (vget_nth segs k []) by (rewrite Hls; lia). cbn [bind].
    assert (Hs : segment_shape q L (D + 1) (nth (Z.to_nat k) segs [])).
    { rewrite Forall_forall in Hsh. apply Hsh. apply nth_In. unfold zlen in Hls. lia. }
    destruct Hs as [Z1 Z2]. pose proof (line_range (npts_of s) d idx Hb) as Hlr. rewrite line_extract by auto.
    fold (lines_in s d) in Hlr. fold L in Hlr.
    set (sl := i - k * q + line (npts_of s) d idx * (q + 1)).
    assert (Hsl : 0 <= sl < L * (q + 1)) by (unfold sl; nia).
    assert (Ehp : vget (nth (Z.to_nat k) segs []) sl = Ok (nth (Z.to_nat sl) (nth (Z.to_nat k) segs []) [])) by (apply vget_nth; lia).
    rnorm. rewrite Ehp. cbn [bind]. set (hp := nth (Z.to_nat sl) (nth (Z.to_nat k) segs []) []) in *.
    assert (Lhp : zlen hp = D + 1).
    { rewrite Forall_forall in Z2. apply Z2. unfold hp. apply nth_In. unfold zlen in Z1. lia. }
    assert (Ehv : forall c, hv idx c = nth (Z.to_nat c) hp 0%R).
    { intros c. unfold hv, value, hp. fold i. fold k. do 3 f_equal. unfold sl. lia. }
    rewrite I0. rewrite (vget_nth hp D 0%R) by lia. cbn [bind].
    assert (Em : mapM (fun j => x <- vget hp j ;; Ok (ndiv (n := F) x (nth (Z.to_nat D) hp 0%R))) (zseq 0 (Z.to_nat D)) =
                 Ok (map (fun c => ndiv (n := F) (nth (Z.to_nat c) hp 0%R) (nth (Z.to_nat D) hp 0%R)) (zseq 0 (Z.to_nat D)))).
    { apply mapM_ok. intros c Hc. apply zseq_In in Hc. rewrite (vget_nth hp c 0%R) by lia. reflexivity. }
    step Em. set (cp := map _ _).
    assert (Lcp : zlen cp = D) by (unfold cp, zlen; rewrite map_length, zseq_length; lia).
    assert (Ncp : forall c, 0 <= c < D -> nth (Z.to_nat c) cp 0%R = ndiv (n := F) (hv idx c) (hv idx D)).
    { intros c Hc. unfold cp. rewrite (nth_map_in _ _ _ 0) by (rewrite zseq_length; lia). rewrite zseq_nth by lia. rewrite !Ehv. do 3 f_equal. lia. }
    unfold set_new_control_point. rewrite I1.
    pose proof (get1d_range _ _ Hb) as Hr.
    destruct (set_cp_at dz ph (total (npts_of s)) (npts_of s) idx cp I3 Hr ltac:(lia)) as (ph1 & E1 & A1 & A2 & A3 & A4 & A5).
    rnorm. rewrite E1. cbn [bind].
    assert (Hcase : forall idx', in_box (npts_of s) idx' -> get1d (npts_of s) idx' < Z.of_nat (S m) -> idx' = idx \/ (get1d (npts_of s) idx' < Z.of_nat m /\ get1d (npts_of s) idx' <> get1d (npts_of s) idx)).
    { intros idx' B1 Hlt'. destruct (Z.eq_dec (get1d (npts_of s) idx') (Z.of_nat m)); [left; apply (get1d_inj (npts_of s)); auto; lia | right; lia]. }
    assert (C5 : forall idx', in_box (npts_of s) idx' -> get1d (npts_of s) idx' < Z.of_nat (S m) -> forall c, 0 <= c < D ->
       cpat dz ph1 (get1d (npts_of s) idx') c = ndiv (n := F) (hv idx' c) (hv idx' D)).
    { intros idx' B1 Hlt' c Hc. pose proof (get1d_range _ _ B1). rewrite A5 by (try rewrite I0; lia).
      destruct (Hcase idx' B1 Hlt') as [->|[C1 C2]].
      - rewrite Z.eqb_refl. now apply Ncp.
      - destruct (Z.eqb_spec (get1d (npts_of s) idx') (get1d (npts_of s) idx)); [contradiction|]. now apply (I4 idx'). }
    destruct (ph_wts ph) as [w|] eqn:Ew.
    + assert (W1 : is_weighted dz ph1 = true) by (unfold is_weighted; rewrite A4; reflexivity).
      rewrite A3, I1.
      destruct (set_w_at dz ph1 (total (npts_of s)) (npts_of s) idx (nth (Z.to_nat D) hp 0%R) A1 Hr W1) as (ph2 & E2 & B1 & B2 & B3 & B4 & B5 & B6).
      rnorm. rewrite E2. exists ph2. split; [reflexivity|]. split; [congruence|]. split; [congruence|].
      split; [rewrite B4, <- I2; unfold is_weighted; rewrite Ew; reflexivity|]. split; [auto|].
      intros idx' Hb' Hlt'. pose proof (get1d_range _ _ Hb'). split.
      * intros Hw. rewrite B6 by lia. destruct (Hcase idx' Hb' Hlt') as [->|[C1 C2]].
        -- rewrite Z.eqb_refl. now rewrite Ehv.
        -- destruct (Z.eqb_spec (get1d (npts_of s) idx') (get1d (npts_of s) idx)); [contradiction|].
           destruct (I4 idx' Hb' C1) as [G1 _]. rewrite <- G1 by auto. unfold wat. now rewrite A4, Ew.
      * intros c Hc. unfold cpat. rewrite B5, B2. now apply C5.
    + exists ph1. split; [reflexivity|]. split; [congruence|]. split; [congruence|].
      assert (W1 : is_weighted dz (sp_ph s) = false) by (rewrite <- I2; unfold is_weighted; now rewrite Ew).
      split; [rewrite W1; unfold is_weighted; now rewrite A4|]. split; [auto|].
      intros idx' Hb' Hlt'. split; [congruence | now apply C5].
  - split; [reflexivity|]. split; [reflexivity|]. split; [reflexivity|]. split; [exact Hsz|]. intros idx B Hlt. pose proof (get1d_range _ _ B). lia.
  - rnorm. rewrite E. cbn [bind]. exists (with_ph s ph'). split; [reflexivity|]. cbn [with_ph sp_ps sp_ph]. unfold npts_of at 1. cbn [with_ph sp_ph].
    split; [reflexivity|]. split; [exact I0|]. split; [exact I1|]. split; [exact I2|]. split; [split; rewrite I1; auto|].
    intros idx Hb. pose proof (get1d_range _ _ Hb). destruct (I4 idx Hb ltac:(lia)) as [G1 G2]. cbv zeta. split.
    + intros Hw. rewrite weight_p. unfold pweight. cbn [with_ph sp_ph]. rewrite I1. now apply G1.
    + intros c Hc. rewrite coordinate_p. unfold pcoord. cbn [with_ph sp_ph]. rewrite I1. now apply G2.
Qed.
End Segments.
