(** Hash maps (`FxHashMap`, `HashMap`, `HashSet`): association lists with the usual operations.
    Iteration order is not specified by Rust; where the code iterates, the model quantifies over the
    order separately. *)
From Verif Require Import Model.Base.

(** Keys with decidable equality. *)
Class EqDec (K : Type) := eq_dec : forall x y : K, {x = y} + {x <> y}.
#[global] Instance eqdec_N : EqDec N := N.eq_dec.
#[global] Instance eqdec_byte : EqDec byte := Byte.byte_eq_dec.
#[global] Instance eqdec_list {A} (d : EqDec A) : EqDec (list A) := list_eq_dec d.
#[global] Instance eqdec_prod {A B} (d : EqDec A) (e : EqDec B) : EqDec (A * B).
Proof. intros [a b] [a' b']. destruct (d a a'), (e b b'); [left; congruence|right; congruence..]. Defined.

Section Map.
Context {K V : Type} {E : EqDec K}.

(** HashMap::get *)
Fixpoint mget (k : K) (m : list (K * V)) : option V :=
  match m with
  | [] => None
  | (k', v) :: m' => if eq_dec k k' then Some v else mget k m'
  end.

(** HashMap::insert *)
Fixpoint mset (k : K) (v : V) (m : list (K * V)) : list (K * V) :=
  match m with
  | [] => [(k, v)]
  | (k', v') :: m' => if eq_dec k k' then (k, v) :: m' else (k', v') :: mset k v m'
  end.

(** HashMap::remove *)
Fixpoint mdel (k : K) (m : list (K * V)) : list (K * V) :=
  match m with
  | [] => []
  | (k', v') :: m' => if eq_dec k k' then mdel k m' else (k', v') :: mdel k m'
  end.

(** HashMap::contains_key *)
Definition mem (k : K) (m : list (K * V)) : bool :=
  match mget k m with Some _ => true | None => false end.

(** HashMap::keys *)
Definition mkeys (m : list (K * V)) : list K := map fst m.
End Map.

(** HashSet::contains / insert / remove. *)
Definition smem {K} {E : EqDec K} (k : K) (s : list K) : bool := if in_dec eq_dec k s then true else false.
Definition sins {K} {E : EqDec K} (k : K) (s : list K) : list K := if smem k s then s else s ++ [k].
Definition sdel {K} {E : EqDec K} (k : K) (s : list K) : list K := remove eq_dec k s.
