(* Lemmas about the string operations. *)
From Coq Require Import ZArith Bool Ascii List Reals Lra Lia.
From Verif Require Import Base BaseFacts StrSpec StrOps.
Import ListNotations.
Open Scope Z_scope.

(* ---- pieces ---- *)
Lemma pieces_prefix sep p s ps : Forall (fun c => ~ sep c) p -> pieces sep s ps -> starts_not (fun c => ~ sep c) s -> p <> [] ->
  pieces sep (p ++ s) (p :: ps).
Proof.
  intros Hp H Hs Hne. inversion H as [|c s' ps' Hc Hs'|q Hq Hf|q c s' ps' Hq Hf Hc Hs']; subst.
  - rewrite app_nil_r. now apply pieces_last.
  - now apply pieces_cons.
  - destruct s as [|c q]; [contradiction|]. cbn in Hs. inversion Hf; subst. contradiction.
  - destruct q as [|a q]; [contradiction|]. cbn in Hs. inversion Hf; subst. contradiction.
Qed.

Lemma pieces_unique sep s ps qs : pieces sep s ps -> pieces sep s qs -> ps = qs.
Proof.
  intros H. revert qs. induction H as [|c s ps Hc H IH|p Hp Hf|p c s ps Hp Hf Hc H IH]; intros qs Hq.
  - inversion Hq as [|?|q Hne|q ? ? ? Hne ? ? ? E]; subst; auto; try contradiction. destruct q; discriminate.
  - inversion Hq as [|? ? ? ? ?|q Hne Hf|q ? ? ? Hne Hf ? ? E]; subst; auto.
    + inversion Hf; subst; contradiction.
    + destruct q as [|a q]; [contradiction|]. cbn in E. inversion E; subst. inversion Hf; subst; contradiction.
  - inversion Hq as [E|c s' ? Hc ? E|q Hne Hf'|q c s' ? Hne Hf' Hc ? E]; subst; auto; try contradiction.
    + inversion Hf; contradiction.
    + exfalso. rewrite Forall_app in Hf. destruct Hf as (_ & Hf). inversion Hf; contradiction.
  - assert (G : forall q c' s', p ++ c :: s = q ++ c' :: s' -> Forall (fun c => ~ sep c) q -> sep c' -> p = q /\ s = s').
    { clear - Hf Hc. induction Hf as [|a p Ha Hf IH]; intros [|b q] c' s' E Hq Hc'; cbn in E; inversion E; subst; auto.
      - inversion Hq; contradiction.
      - contradiction.
      - destruct (IH q c' s' H1) as (-> & ->); auto. now inversion Hq. }
    inversion Hq as [E|c' s' ? Hc' ? E|q Hne Hf' E|q c' s' qs' Hne Hf' Hc' Hs' E]; subst.
    + destruct p; discriminate.
    + destruct p as [|a p]; [contradiction|]. cbn in E. inversion E; subst. inversion Hf; contradiction.
    + exfalso. rewrite Forall_app in Hf'. destruct Hf' as (_ & Hf'). inversion Hf'; contradiction.
    + destruct (G q c' s') as (-> & ->); auto. f_equal. now apply IH.
Qed.

Lemma pieces_app sep s t ps qs : pieces sep s ps -> pieces sep t qs -> starts_not (fun c => ~ sep c) t -> pieces sep (s ++ t) (ps ++ qs).
Proof.
  intros H Ht Hs. induction H as [|c s ps Hc H IH|p Hp Hf|p c s ps Hp Hf Hc H IH]; cbn; auto.
  - now apply pieces_sep.
  - now apply pieces_prefix.
  - rewrite <- app_assoc. cbn. now apply pieces_cons.
Qed.

(* ---- getline ---- *)
Lemma until_spec d s : let (a, b) := until d s in Forall (fun c => c <> d) a /\ (s = a ++ d :: b \/ (s = a /\ b = [])).
Proof.
  induction s as [|c s IH]; cbn [until]; [split; auto; constructor|].
  destruct (Ascii.eqb_spec c d) as [->|Hne].
  - split; [constructor | left; reflexivity].
  - destruct (until d s) as [a b]. destruct IH as (Ha & IH). split; [constructor; auto|].
    destruct IH as [->|(-> & ->)]; [left | right]; auto.
Qed.

Lemma getlines_step n d s : getlines (S n) d s = match s with [] => [] | _ => let (l, r) := until d s in l :: getlines n d r end.
Proof. destruct s; reflexivity. Qed.

(* filtering the lines gives the pieces for the one separator d *)
Lemma fields_pieces d : forall n s, (length s <= n)%nat ->
  pieces (fun c => c = d) s (filter (fun v => negb (is_empty v)) (getlines n d s)).
Proof.
  induction n as [|n IH]; intros s Hn; [destruct s; [constructor | cbn in Hn; lia]|].
  rewrite getlines_step. destruct s as [|c0 s0]; [constructor|]. set (s := c0 :: s0) in *.
  pose proof (until_spec d s) as H. destruct (until d s) as [a b]. destruct H as (Ha & [E|(E & Eb)]).
  - assert (Hb : (length b <= n)%nat) by (rewrite E, app_length in Hn; cbn in Hn; lia).
    specialize (IH b Hb). rewrite E. cbn [filter]. destruct a as [|x a]; cbn [is_empty negb app].
    + now apply pieces_sep.
    + apply (pieces_cons (fun c => c = d) (x :: a)); auto. discriminate.
  - subst b. cbn [filter]. assert (a <> []) by (rewrite <- E; discriminate).
    destruct a as [|x a]; [contradiction|]. cbn [is_empty negb]. rewrite E.
    assert (En : getlines n d [] = []) by (destruct n; reflexivity). rewrite En. cbn [filter]. apply pieces_last; auto.
Qed.

Lemma pieces_weaken (P Q : ascii -> Prop) s ps : (forall c, In c s -> (P c <-> Q c)) -> pieces P s ps -> pieces Q s ps.
Proof.
  intros H Hp. induction Hp as [|c s ps Hc Hp IH|p Hp Hf|p c s ps Hp Hf Hc Hps IH].
  - constructor.
  - apply pieces_sep; [apply H; [now left | auto]|]. apply IH. intros; apply H. now right.
  - apply pieces_last; auto. rewrite Forall_forall in *. intros c Hc C. apply (Hf c Hc). now apply H.
  - apply pieces_cons; auto.
    + rewrite Forall_forall in *. intros x Hx C. apply (Hf x Hx). apply H; auto. apply in_or_app. now left.
    + apply H; auto. apply in_or_app. right. now left.
    + apply IH. intros x Hx. apply H. apply in_or_app. right. now right.
Qed.

Lemma split_pieces s d : pieces (fun c => c = d \/ c = newline) s (split s d).
Proof.
  unfold split. assert (G : forall n s, (length s <= n)%nat -> pieces (fun c => c = d \/ c = newline) s
    (flat_map (fun line => filter (fun v => negb (is_empty v)) (getlines (length line) d line)) (getlines n newline s))); [|now apply G].
  clear s. induction n as [|n IH]; intros s Hn; [destruct s; [constructor | cbn in Hn; lia]|].
  rewrite getlines_step. destruct s as [|c0 s0]; [constructor|]. set (s := c0 :: s0) in *.
  pose proof (until_spec newline s) as H. destruct (until newline s) as [a b]. destruct H as (Ha & H).
  assert (Pa : pieces (fun c => c = d \/ c = newline) a (filter (fun v => negb (is_empty v)) (getlines (length a) d a))).
  { eapply pieces_weaken; [|apply fields_pieces; lia]. intros c Hc. rewrite Forall_forall in Ha. specialize (Ha c Hc). tauto. }
  cbn [flat_map]. destruct H as [E|(E & ->)].
  - assert (Hb : (length b <= n)%nat) by (rewrite E, app_length in Hn; cbn in Hn; lia).
    rewrite E. apply pieces_app; auto.
    + apply pieces_sep; auto.
    + cbn. tauto.
  - assert (En : getlines n newline [] = []) by (destruct n; reflexivity). rewrite En. cbn [flat_map]. rewrite app_nil_r, E. exact Pa.
Qed.

Lemma join_pieces (sep : ascii -> Prop) d ps : sep d -> Forall (fun p => p <> [] /\ Forall (fun c => ~ sep c) p) ps ->
  pieces sep (join d ps) ps.
Proof.
  intros Hd H. induction H as [|p ps (Hp & Hf) H IH]; cbn [join]; [constructor|].
  destruct ps as [|q ps]; [now apply pieces_last|]. apply pieces_cons; auto.
Qed.

(* ---- trim ---- *)
Lemma isspace_white c : isspace c = true <-> white c.
Proof.
  unfold isspace, white. rewrite orb_true_iff, andb_true_iff, !Nat.leb_le, Nat.eqb_eq. split.
  - intros [H|H]; auto. left. rewrite <- (ascii_nat_embedding c), H. reflexivity.
  - intros [->|H]; auto.
Qed.

Lemma drop_while_spec f s : exists l, s = l ++ drop_while f s /\ Forall (fun c => f c = true) l /\
  starts_not (fun c => f c = true) (drop_while f s).
Proof.
  induction s as [|c s IH]; cbn [drop_while]; [exists []; repeat split; constructor|].
  destruct (f c) eqn:E.
  - destruct IH as (l & E1 & H1 & H2). exists (c :: l). cbn. rewrite <- E1. auto.
  - exists []. cbn. rewrite E. repeat split; auto.
Qed.

Lemma trim_spec s : exists l r, s = l ++ trim s ++ r /\
  Forall (fun c => white c \/ c = "["%char) l /\ Forall (fun c => white c \/ c = "]"%char) r /\
  starts_not (fun c => white c \/ c = "["%char) (trim s ++ r) /\
  starts_not (fun c => white c \/ c = "]"%char) (rev (trim s)).
Proof.
  assert (B : forall x c, (isspace c || Ascii.eqb c x)%bool = true <-> white c \/ c = x).
  { intros x c. rewrite orb_true_iff, isspace_white, Ascii.eqb_eq. tauto. }
  unfold trim. set (f := fun c => isspace c || Ascii.eqb c "["). set (g := fun c => isspace c || Ascii.eqb c "]").
  destruct (drop_while_spec f s) as (l & E1 & H1 & H2). set (s1 := drop_while f s) in *.
  destruct (drop_while_spec g (rev s1)) as (r & E2 & H3 & H4). set (s2 := drop_while g (rev s1)) in *.
  assert (E3 : s1 = rev s2 ++ rev r) by (rewrite <- rev_app_distr, <- E2; now rewrite rev_involutive).
  exists l, (rev r). rewrite <- E3, rev_involutive. split; auto. split; [|split; [|split]].
  - eapply Forall_impl; [|exact H1]. intros c. apply B.
  - apply Forall_rev. eapply Forall_impl; [|exact H3]. intros c. apply B.
  - destruct s1; cbn in *; auto. intros C. apply H2. now apply B.
  - destruct s2; cbn in *; auto. intros C. apply H4. now apply B.
Qed.

Lemma trim_unique s m l r : s = l ++ m ++ r ->
  Forall (fun c => white c \/ c = "["%char) l -> Forall (fun c => white c \/ c = "]"%char) r ->
  starts_not (fun c => white c \/ c = "["%char) (m ++ r) ->
  starts_not (fun c => white c \/ c = "]"%char) (rev m) -> m = trim s.
Proof.
  intros E Hl Hr Hs He. destruct (trim_spec s) as (l' & r' & E' & Hl' & Hr' & Hs' & He').
  assert (G : forall (P : ascii -> Prop) a b a' b', a ++ b = a' ++ b' -> Forall P a -> Forall P a' -> starts_not P b -> starts_not P b' -> a = a' /\ b = b').
  { clear. intros P. induction a as [|x a IH]; intros b [|x' a'] b' E Ha Ha' Hb Hb'; cbn in E.
    - auto.
    - subst b. cbn in Hb. inversion Ha'; contradiction.
    - subst b'. cbn in Hb'. inversion Ha; contradiction.
    - inversion E; subst. destruct (IH b a' b') as (-> & ->); auto; [now inversion Ha | now inversion Ha']. }
  destruct (G (fun c => white c \/ c = "["%char) l (m ++ r) l' (trim s ++ r')) as (_ & E2); auto; [now rewrite <- E|].
  apply (f_equal (@rev ascii)) in E2. rewrite !rev_app_distr in E2.
  destruct (G (fun c => white c \/ c = "]"%char) (rev r) (rev m) (rev r') (rev (trim s)) E2) as (_ & E3); auto using Forall_rev.
  rewrite <- (rev_involutive m), E3. apply rev_involutive.
Qed.

(* ---- find ---- *)
Lemma is_prefix_spec t s : is_prefix t s = true <-> prefix_of t s.
Proof.
  unfold prefix_of. revert s; induction t as [|c t IH]; intros s; cbn [is_prefix].
  - split; auto. intros _. now exists s.
  - destruct s as [|e s]; [split; [discriminate | intros (r & E); discriminate]|].
    rewrite andb_true_iff, Ascii.eqb_eq, IH. split.
    + intros (-> & r & ->). now exists r.
    + intros (r & E). inversion E; subst. split; auto. now exists r.
Qed.

Lemma find_from_spec t s i :
  (exists a b, s = a ++ t ++ b /\ find_from i t s = i + zlen a /\ (forall n, (n < length a)%nat -> ~ occurs_at t s n)) \/
  (find_from i t s = npos /\ forall n, ~ occurs_at t s n).
Proof.
  revert i; induction s as [|c s IH]; intros i; cbn [find_from].
  - destruct (is_prefix t []) eqn:E.
    + left. apply is_prefix_spec in E as (r & E). exists [], r. split; auto. split; [unfold zlen; cbn; lia|]. cbn. lia.
    + right. split; auto. intros n (a & b & Ho & _). assert (is_prefix t [] = true); [|congruence].
      apply is_prefix_spec. exists b. symmetry in Ho. apply app_eq_nil in Ho as (-> & Ho). auto.
  - destruct (is_prefix t (c :: s)) eqn:E.
    + left. apply is_prefix_spec in E as (r & E). exists [], r. split; auto. split; [unfold zlen; cbn; lia|]. cbn. lia.
    + assert (N0 : ~ occurs_at t (c :: s) 0).
      { intros (a & b & Ho & La). destruct a; [|discriminate]. assert (is_prefix t (c :: s) = true); [|congruence].
        apply is_prefix_spec. now exists b. }
      assert (NS : forall n, occurs_at t (c :: s) (S n) -> occurs_at t s n).
      { intros n (a & b & Ho & La). destruct a as [|x a]; [discriminate|]. cbn in Ho. inversion Ho; subst. exists a, b. auto. }
      destruct (IH (i + 1)) as [(a & b & E1 & E2 & H)|(E1 & H)].
      * left. exists (c :: a), b. rewrite E1 at 1. split; auto. split; [rewrite E2; unfold zlen; cbn [length]; lia|].
        intros [|n] Hn; auto. intros C. apply NS in C. apply (H n); auto. cbn in Hn. lia.
      * right. split; auto. intros [|n] C; auto. apply NS in C. now apply (H n).
Qed.

Lemma starts_with_spec s t : starts_with s t = true <-> prefix_of t s.
Proof.
  unfold starts_with, find. rewrite Z.eqb_eq. destruct (find_from_spec t s 0) as [(a & b & E1 & E2 & H)|(E1 & H)].
  - rewrite E2. split.
    + intros C. destruct a; [|unfold zlen in C; cbn [length] in C; lia]. now exists b.
    + intros (r & E). destruct a as [|x a]; [reflexivity|]. exfalso. apply (H 0%nat); [cbn; lia|]. exists [], r. auto.
  - rewrite E1. split; [discriminate|]. intros (r & E). exfalso. apply (H 0%nat). exists [], r. auto.
Qed.

(* the exact behaviour of EndsWith *)
Lemma ends_with_spec s t : zlen s < 2 ^ 63 -> zlen t < 2 ^ 63 ->
  (ends_with s t = true <->
   (suffix_of t s /\ forall n, (n < length s - length t)%nat -> ~ occurs_at t s n) \/ zlen t = zlen s + 1).
Proof.
  intros Hs Ht. unfold ends_with, find. rewrite Z.eqb_eq. unfold u64.
  destruct (find_from_spec t s 0) as [(a & b & E1 & E2 & H)|(E1 & H)].
  - assert (Hlen : zlen s = zlen a + zlen t + zlen b) by (rewrite E1; unfold zlen; rewrite !app_length; lia).
    assert (0 <= zlen a /\ 0 <= zlen b /\ 0 <= zlen t) by (unfold zlen; lia).
    rewrite E2, Z.mod_small by lia. split.
    + intros C. left. assert (Hb : b = []) by (destruct b; auto; unfold zlen in *; cbn [length] in *; lia). subst b.
      rewrite app_nil_r in E1. split; [now exists a|]. intros n Hn. apply H. unfold zlen in *. cbn [length] in *. lia.
    + intros [(Hsuf & Hn)|C]; [|lia]. destruct b as [|x b]; [unfold zlen in *; cbn [length] in *; lia|]. exfalso.
      apply (Hn (length a)); [unfold zlen in *; cbn [length] in *; lia|]. exists a, (x :: b). auto.
  - assert (0 <= zlen s /\ 0 <= zlen t) by (unfold zlen; lia).
    rewrite E1. split.
    + intros C. right. assert (zlen s < zlen t).
      { destruct (Z_lt_ge_dec (zlen s) (zlen t)); auto. unfold npos in C. rewrite Z.mod_small in C by lia. lia. }
      assert (E : (zlen s - zlen t) mod 2 ^ 64 = zlen s - zlen t + 2 ^ 64).
      { rewrite <- (Z.mod_small (zlen s - zlen t + 2 ^ 64) (2 ^ 64)) by (unfold zlen in *; lia).
        rewrite <- Z.add_mod_idemp_r by lia. rewrite Z.mod_same by lia. now rewrite Z.add_0_r. }
      rewrite E in C. unfold npos in C. lia.
    + intros [((r & E) & _)|C].
      * exfalso. apply (H (length r)). exists r, []. rewrite app_nil_r. auto.
      * rewrite C. replace (zlen s - (zlen s + 1)) with (-1) by lia. reflexivity.
Qed.

(* ---- find_first_of ---- *)
Lemma find_first_none f s i : Forall (fun c => f c = false) s -> find_first_from i f s = npos.
Proof. intros H. revert i; induction H as [|c s Hc H IH]; intros i; cbn [find_first_from]; auto. now rewrite Hc. Qed.
Lemma find_first_at f a c b i : Forall (fun c => f c = false) a -> f c = true -> find_first_from i f (a ++ c :: b) = i + zlen a.
Proof.
  intros H Hc. revert i; induction H as [|x a Hx H IH]; intros i; cbn [app find_first_from].
  - rewrite Hc. unfold zlen; cbn; lia.
  - rewrite Hx, IH. unfold zlen; cbn [length]. lia.
Qed.
