(** Common vocabulary of the model: results of Go calls, slices, permutations. *)
From Coq Require Import List Permutation Arith Lia Bool.
Import ListNotations.

(** Result of a Go call: a value, a non-nil error, or a run-time panic. *)
Inductive res (A : Type) : Type :=
| Ok (a : A)
| Err
| Panicked.
Arguments Ok {A} a.
Arguments Err {A}.
Arguments Panicked {A}.

Definition bind {A B} (x : res A) (f : A -> res B) : res B :=
  match x with Ok a => f a | Err => Err | Panicked => Panicked end.
Notation "'do' x <- e ; f" := (bind e (fun x => f))
  (at level 200, x pattern, e at level 100, f at level 200, right associativity).

(** Go slice expressions on a slice whose length equals its capacity for the
    purposes of bounds: [s[i:]], [s[i:j]]. Out of range is a panic. *)
Definition slice_from {A} (i : nat) (s : list A) : res (list A) :=
  if i <=? length s then Ok (skipn i s) else Panicked.
Definition slice {A} (i j : nat) (s : list A) : res (list A) :=
  if (i <=? j) && (j <=? length s) then Ok (firstn (j - i) (skipn i s)) else Panicked.

(** Go's builtin [copy(dst, src)]: returns the new contents of [dst]; the
    number of elements copied is [min (length dst) (length src)]. *)
Definition go_copy {A} (dst src : list A) : list A :=
  firstn (length dst) src ++ skipn (length src) dst.

Lemma slice_from_ok {A} i (s : list A) :
  i <= length s -> slice_from i s = Ok (skipn i s).
Proof. intros H. unfold slice_from. apply Nat.leb_le in H. now rewrite H. Qed.

Lemma slice_ok {A} i j (s : list A) :
  i <= j -> j <= length s -> slice i j s = Ok (firstn (j - i) (skipn i s)).
Proof.
  intros H1 H2. unfold slice.
  apply Nat.leb_le in H1. apply Nat.leb_le in H2. now rewrite H1, H2.
Qed.

Lemma go_copy_length {A} (d s : list A) : length (go_copy d s) = length d.
Proof.
  unfold go_copy. rewrite app_length, firstn_length, skipn_length. lia.
Qed.

Lemma firstn_app_exact {A} (a b : list A) n : n = length a -> firstn n (a ++ b) = a.
Proof. intros ->. rewrite firstn_app, Nat.sub_diag, firstn_all. cbn. apply app_nil_r. Qed.
Lemma skipn_app_exact {A} (a b : list A) n : n = length a -> skipn n (a ++ b) = b.
Proof. intros ->. rewrite skipn_app, Nat.sub_diag, skipn_all. reflexivity. Qed.
Lemma skipn_skipn {A} (x y : nat) (l : list A) : skipn x (skipn y l) = skipn (y + x) l.
Proof.
  revert l; induction y; cbn; intros l; auto.
  destruct l; auto. now rewrite skipn_nil.
Qed.

(** ** A small reflective solver for permutations of concatenations *)
Inductive pexp := PNil | PAtom (i : nat) | PApp (a b : pexp).
Fixpoint pden {A} (env : list (list A)) (e : pexp) : list A :=
  match e with
  | PNil => []
  | PAtom i => nth i env []
  | PApp a b => pden env a ++ pden env b
  end.
Fixpoint pflat (e : pexp) : list nat :=
  match e with PNil => [] | PAtom i => [i] | PApp a b => pflat a ++ pflat b end.
Fixpoint pins (x : nat) (l : list nat) : list nat :=
  match l with [] => [x] | y :: r => if x <=? y then x :: l else y :: pins x r end.
Definition psort (l : list nat) : list nat := fold_right pins [] l.

Lemma pflat_den {A} (env : list (list A)) e :
  pden env e = flat_map (fun i => nth i env []) (pflat e).
Proof.
  induction e; cbn; auto.
  - now rewrite app_nil_r.
  - now rewrite flat_map_app, IHe1, IHe2.
Qed.
Lemma pins_perm x l : Permutation (x :: l) (pins x l).
Proof.
  induction l as [|y r IH]; cbn; auto.
  destruct (x <=? y); auto.
  transitivity (y :: x :: r); [apply perm_swap|now constructor].
Qed.
Lemma psort_perm l : Permutation l (psort l).
Proof.
  induction l as [|x r IH]; cbn; auto.
  transitivity (x :: psort r); [now constructor|apply pins_perm].
Qed.
Lemma pflat_map_perm {A B} (f : A -> list B) l l' :
  Permutation l l' -> Permutation (flat_map f l) (flat_map f l').
Proof.
  induction 1; cbn; auto.
  - now apply Permutation_app_head.
  - rewrite !app_assoc. apply Permutation_app_tail, Permutation_app_comm.
  - eapply perm_trans; eauto.
Qed.
Lemma pexp_perm {A} (env : list (list A)) a b :
  psort (pflat a) = psort (pflat b) -> Permutation (pden env a) (pden env b).
Proof.
  intros H. rewrite !pflat_den. apply pflat_map_perm.
  rewrite (psort_perm (pflat a)), H. symmetry. apply psort_perm.
Qed.

Ltac perm_lookup x env :=
  match env with
  | x :: _ => constr:(0)
  | _ :: ?r => let n := perm_lookup x r in constr:(S n)
  end.
Ltac perm_add x env :=
  match env with
  | context [x :: _] => env
  | _ => constr:(x :: env)
  end.
Ltac perm_collect t env :=
  lazymatch t with
  | ?a ++ ?b => let e := perm_collect a env in perm_collect b e
  | nil => env
  | [?x] => perm_add t env
  | ?x :: ?r => let e := perm_add [x] env in perm_collect r e
  | _ => perm_add t env
  end.
Ltac perm_reify t env :=
  lazymatch t with
  | ?a ++ ?b => let x := perm_reify a env in let y := perm_reify b env in constr:(PApp x y)
  | nil => constr:(PNil)
  | [?x] => let n := perm_lookup t env in constr:(PAtom n)
  | ?x :: ?r => let n := perm_lookup [x] env in let y := perm_reify r env in
                constr:(PApp (PAtom n) y)
  | _ => let n := perm_lookup t env in constr:(PAtom n)
  end.
(** Proves [Permutation a b] when both sides are concatenations of the same atoms. *)
Ltac perm_solve :=
  match goal with
  | |- @Permutation ?A ?a ?b =>
      let e := perm_collect a (@nil (list A)) in
      let env := perm_collect b e in
      let x := perm_reify a env in
      let y := perm_reify b env in
      change (Permutation (pden env x) (pden env y));
      apply pexp_perm; vm_compute; reflexivity
  end.

Example perm_solve_test (a b c : list nat) :
  Permutation (a ++ 1 :: b ++ c) ((c ++ [1] ++ a) ++ b).
Proof. perm_solve. Qed.
