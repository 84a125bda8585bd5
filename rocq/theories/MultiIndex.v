(* Model of src/util/multi_index_handler.h (class MultiIndexHandler<DIM>).
   std::array<int, DIM> is a list of length DIM. *)
From Coq Require Import ZArith List Bool.
From Verif Require Import Base.
Import ListNotations.
Open Scope Z_scope.

(* multi_index_handler.h:155-157: the two data members *)
Record mih := mkMih { mlen : list Z; mcur : list Z }.

(* multi_index_handler.h:26-30: constructor, all indices 0 *)
Definition mih_new (lens : list Z) : mih := mkMih lens (map (fun _ => 0) lens).

(* multi_index_handler.h:40-50: loop of operator++ with its break, over (length, value) pairs *)
Fixpoint incr (lens cur : list Z) : list Z :=
  match lens, cur with
  | l :: ls, c :: cs =>
      if (c =? l - 1) || (l =? 0) then 0 :: incr ls cs else (c + 1) :: cs
  | _, _ => cur
  end.
Definition mih_incr (h : mih) : mih := mkMih (mlen h) (incr (mlen h) (mcur h)).

(* multi_index_handler.h:58-68: operator-- *)
Fixpoint decr (lens cur : list Z) : list Z :=
  match lens, cur with
  | l :: ls, c :: cs => if c =? 0 then (l - 1) :: decr ls cs else (c - 1) :: cs
  | _, _ => cur
  end.
Definition mih_decr (h : mih) : mih := mkMih (mlen h) (decr (mlen h) (mcur h)).

(* multi_index_handler.h:70-75: operator+(int i); no step for i <= 0 *)
Definition mih_plus (h : mih) (i : Z) : mih := iterate (Z.to_nat i) mih_incr h.
(* multi_index_handler.h:77-82: operator-(int i) *)
Definition mih_minus (h : mih) (i : Z) : mih := iterate (Z.to_nat i) mih_decr h.

(* multi_index_handler.h:84-88 *)
Definition mih_set_indices (h : mih) (idx : list Z) : mih := mkMih (mlen h) idx.

(* multi_index_handler.h:118-128: Get1DIndex(length, indices): sum over i of
   indices[i] * length[i-1] * ... * length[0].  [stride] accumulates the product of the lengths
   seen so far (same integer value as the inner loop). *)
Fixpoint get1d_from (stride : Z) (lens idx : list Z) : Z :=
  match lens, idx with
  | l :: ls, i :: is => i * stride + get1d_from (stride * l) ls is
  | _, _ => 0
  end.
Definition get1d (lens idx : list Z) : Z := get1d_from 1 lens idx.
(* multi_index_handler.h:110-112 *)
Definition mih_get1d (h : mih) : Z := get1d (mlen h) (mcur h).

(* multi_index_handler.h:130-136: Get1DLength *)
Definition total (lens : list Z) : Z := fold_right Z.mul 1 lens.
Definition mih_length (h : mih) : Z := total (mlen h).

(* multi_index_handler.h:90-96: Set1DIndex(index): do ++ until Get1DIndex() == index.
   [n] bounds the number of executed increments; None = not reached after n of them.
   The C++ loop returns h' iff some n gives Some h'; it diverges iff all n give None. *)
Fixpoint set1d (n : nat) (h : mih) (index : Z) : option mih :=
  match n with
  | O => None
  | S n' => let h' := mih_incr h in
            if mih_get1d h' =? index then Some h' else set1d n' h' index
  end.

(* multi_index_handler.h:102-108: GetDifferenceIndices *)
Definition difference_indices (h : mih) : list Z :=
  map (fun lc => fst lc - snd lc - 1) (combine (mlen h) (mcur h)).

(* delete the element at position d *)
Fixpoint remove_at {A} (d : nat) (l : list A) : list A :=
  match l, d with
  | [], _ => []
  | _ :: t, O => t
  | h :: t, S d' => h :: remove_at d' t
  end.

(* multi_index_handler.h:138-153: ExtractDimension(dimension): positions below [dimension] are
   copied, the following ones are shifted down, the last entry of both arrays is 0; then
   Get1DIndex of these arrays. *)
Definition extract_dimension (h : mih) (d : nat) : Z :=
  get1d (remove_at d (mlen h) ++ [0]) (remove_at d (mcur h) ++ [0]).

(* for (int i = 0; i < n; ++i, ++handler) body *)
Fixpoint mih_for {St} (n : nat) (h : mih) (body : mih -> St -> Res St) (s : St) : Res St :=
  match n with
  | O => Ok s
  | S n' => (s' <- body h s ;; mih_for n' (mih_incr h) body s')%res
  end.
(* loop over a fresh handler: for (int i = 0; i < handler.Get1DLength(); ++i, ++handler) *)
Definition mih_loop {St} (lens : list Z) (body : mih -> St -> Res St) (s : St) : Res St :=
  mih_for (Z.to_nat (total lens)) (mih_new lens) body s.
(* for (int i = n - 1; i >= 0; --i, --handler) body *)
Fixpoint mih_for_down {St} (n : nat) (h : mih) (body : mih -> St -> Res St) (s : St) : Res St :=
  match n with
  | O => Ok s
  | S n' => (s' <- body h s ;; mih_for_down n' (mih_decr h) body s')%res
  end.
