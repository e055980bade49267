(** A tactic for permutations of concatenations. *)

From Coq Require Import List Permutation Arith.
Import ListNotations.

Section Reflect.
Context {A : Type}.
Variable atoms : list (list A).

Inductive pexp := PAtom (i : nat) | PApp (e f : pexp) | PNil.

Fixpoint peval (e : pexp) : list A :=
  match e with
  | PAtom i => nth i atoms []
  | PApp e f => peval e ++ peval f
  | PNil => []
  end.

Fixpoint pinsert (i : nat) (l : list nat) : list nat :=
  match l with
  | [] => [i]
  | j :: l' => if i <=? j then i :: l else j :: pinsert i l'
  end.
Fixpoint pflat (e : pexp) (acc : list nat) : list nat :=
  match e with
  | PAtom i => pinsert i acc
  | PApp e f => pflat e (pflat f acc)
  | PNil => acc
  end.
Definition pall (l : list nat) : list A := concat (map (fun i => nth i atoms []) l).

Lemma pinsert_perm i l : Permutation (pall (pinsert i l)) (nth i atoms [] ++ pall l).
Proof.
  induction l as [|j l IH]; [reflexivity|]. cbn [pinsert]. destruct (i <=? j); [reflexivity|].
  unfold pall in *. cbn [map concat]. rewrite IH, !app_assoc. apply Permutation_app_tail, Permutation_app_comm.
Qed.

Lemma pflat_perm e : forall acc, Permutation (pall (pflat e acc)) (peval e ++ pall acc).
Proof.
  induction e as [i|e IHe f IHf|]; intros acc; cbn [pflat peval].
  - apply pinsert_perm.
  - rewrite IHe, IHf. now rewrite app_assoc.
  - reflexivity.
Qed.

Lemma pexp_perm e f : pflat e [] = pflat f [] -> Permutation (peval e) (peval f).
Proof.
  intros H. pose proof (pflat_perm e []) as He. pose proof (pflat_perm f []) as Hf. rewrite H in He.
  cbn in He, Hf. rewrite app_nil_r in He, Hf. now rewrite <- He, <- Hf.
Qed.
End Reflect.

Ltac pfind x l := match l with x :: _ => constr:(0) | _ :: ?l' => let k := pfind x l' in constr:(S k) end.
Ltac padd x l := match l with context [x :: _] => l | _ => constr:(x :: l) end.
Ltac pcollect e acc :=
  match e with
  | ?a ++ ?b => let acc' := pcollect a acc in pcollect b acc'
  | [] => acc
  | [?x] => padd [x] acc
  | ?x :: ?l => let acc' := padd [x] acc in pcollect l acc'
  | ?x => padd x acc
  end.
Ltac pquote e env :=
  match e with
  | ?a ++ ?b => let u := pquote a env in let v := pquote b env in constr:(PApp u v)
  | [] => constr:(PNil)
  | [?x] => let k := pfind [x] env in constr:(PAtom k)
  | ?x :: ?l => let k := pfind [x] env in let v := pquote l env in constr:(PApp (PAtom k) v)
  | ?x => let k := pfind x env in constr:(PAtom k)
  end.

(** Proves that two concatenations of the same lists are permutations. *)
Ltac perm :=
  match goal with
  | |- @Permutation ?A ?x ?y =>
      let env0 := pcollect x (@nil (list A)) in
      let env := pcollect y env0 in
      let e := pquote x env in
      let f := pquote y env in
      change (Permutation (peval env e) (peval env f)); apply pexp_perm; reflexivity
  end.
