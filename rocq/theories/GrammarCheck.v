(** The tables of the generated parser against the grammar: a certificate that
    relates every state of the machine to the parts of the grammar that may
    follow there, and the check of the certificate. *)

From Coq Require Import Ascii String NArith ZArith Bool List Lia.
From Verif Require Import Base Regular RegularProofs Arrays ParserTables Parser MachineRows Grammar.
Import ListNotations.

(** ** Threads *)

Fixpoint thread_eqb (a b : list N) : bool :=
  match a, b with
  | [], [] => true
  | x :: a', y :: b' => (x =? y)%N && thread_eqb a' b'
  | _, _ => false
  end.

Lemma thread_eqb_eq a : forall b, thread_eqb a b = true <-> a = b.
Proof.
  induction a as [|x a IH]; intros [|y b]; cbn; try (split; congruence).
  rewrite andb_true_iff, N.eqb_eq, IH. split; [intros [-> ->]; reflexivity|intros [= -> ->]; auto].
Qed.

Definition thread_in (t : list N) (l : list (list N)) : bool := existsb (thread_eqb t) l.

Lemma thread_in_spec t l : thread_in t l = true <-> In t l.
Proof.
  unfold thread_in. rewrite existsb_exists. split.
  - intros [x [Hx E]]. apply thread_eqb_eq in E. now subst.
  - intros H. exists t. split; [exact H|]. now apply thread_eqb_eq.
Qed.

(** ** Computing the certificate *)

Section Search.

Variable tbl : ptrie lre.

Fixpoint add_thread (t : list N) (l : list (list N)) : list (list N) :=
  match l with
  | [] => [t]
  | x :: l' => if thread_eqb t x then l else x :: add_thread t l'
  end.
Definition successors (ts : list (list N)) : list part := flat_map (tlf tbl) ts.
Definition next_threads (ps : list part) (m : N) : list (list N) :=
  fold_left (fun acc (p : part) => let '(_, m', k) := p in
    if (N.land m m' =? 0)%N then acc else add_thread k acc) ps [].

Fixpoint explore (fuel : nat) (work : list N) (cert : ptrie (list (list N))) : ptrie (list (list N)) :=
  match fuel, work with
  | S f, q :: work' =>
      match nget cert q with
      | None => cert
      | Some ts =>
          let ps := successors ts in
          let '(w, c) :=
            fold_left (fun wc e =>
              let '(w, c) := wc in
              if (e_to e =? hext_error)%N then (w, c)
              else match nget c (e_to e) with
                   | Some _ => (w, c)
                   | None => (e_to e :: w, pset c (N.succ_pos (e_to e)) (next_threads ps (e_mask e)))
                   end) (row q) (work', cert) in
          explore f w c
      end
  | _, _ => cert
  end.

End Search.

Definition first_thread (r : lre) : list N := match r with LStar i _ => [i] | _ => [] end.

Definition certificate (r : lre) : ptrie (list (list N)) :=
  explore (table_of r) 1000 [hext_start] (pset PLeaf (N.succ_pos hext_start) [first_thread r]).

(** ** Checking it *)

Section Check.

Variable tbl : ptrie lre.
Variable cert : ptrie (list (list N)).

(** Whether the machine may run [acts] where the grammar has one of [l]. *)
Variable acts_ok : list (list N) -> list N -> bool.

Definition threads (q : N) : list (list N) := match nget cert q with Some ts => ts | None => [] end.

Definition overlap (m m' : N) : bool := negb (N.land m m' =? 0)%N.

Definition entry_ok (ps : list part) (e : entry) : bool :=
  let ps' := filter (fun p : part => overlap (e_mask e) (snd (fst p))) ps in
  match ps' with
  | [] => (e_to e =? hext_error)%N && thread_eqb (e_acts e) [88%N]
  | _ :: _ =>
      negb (e_to e =? hext_error)%N
      && (let ts' := threads (e_to e) in
          forallb (fun p : part => thread_in (snd p) ts' && (N.ldiff (e_mask e) (snd (fst p)) =? 0)%N) ps'
          && forallb (fun t => thread_in t (map snd ps')) ts')
      && acts_ok (map (fun p : part => fst (fst p)) ps') (e_acts e)
  end.

Definition known_label (i : N) : bool := match nget tbl i with Some _ => true | None => false end.

Definition check_state (q : N) : bool :=
  let ts := threads q in
  let ps := successors tbl ts in
  forallb (forallb known_label) ts
  && forallb (fun e => (e_mask e =? 0)%N || entry_ok ps e) (row q)
  && match machine_eof q with
     | Ok acts =>
         match flat_map (tnulls tbl) ts with
         | [] => thread_eqb acts [88%N]
         | l => acts_ok l acts
         end
     | _ => false
     end.

Definition check_all : bool :=
  forallb (fun q => (q =? hext_error)%N || check_state q) (below state_count).

End Check.

(** All branches of the grammar want the same actions. *)
Definition acts_same (l : list (list N)) (acts : list N) : bool := forallb (thread_eqb acts) l.

(** The actions of all branches, in ascending order. *)
Definition acts_union (l : list (list N)) (acts : list N) : bool :=
  increasing acts
  && forallb (forallb (fun a => existsb (N.eqb a) acts)) l
  && forallb (fun a => existsb (existsb (N.eqb a)) l) acts.

(** ** The two grammars *)

Definition lG : lre := Eval vm_compute in fst (label G 0).
Definition cG : ptrie (list (list N)) := Eval vm_compute in certificate lG.

Definition lX : lre := Eval vm_compute in fst (label G_exact 0).
Definition cX : ptrie (list (list N)) := Eval vm_compute in certificate lX.

Lemma erase_lG : erase lG = G.
Proof. vm_compute. reflexivity. Qed.
Lemma erase_lX : erase lX = G_exact.
Proof. vm_compute. reflexivity. Qed.

Definition expression_ok (r : lre) : bool := increasing (map fst (subs r)) && stars_ok r && live r.

Lemma lG_ok : expression_ok lG = true.
Proof. vm_compute. reflexivity. Qed.
Lemma lX_ok : expression_ok lX = true.
Proof. vm_compute. reflexivity. Qed.

Lemma check_G : check_all (table_of lG) cG acts_union = true.
Proof. vm_compute. reflexivity. Qed.
Lemma check_X : check_all (table_of lX) cX acts_same = true.
Proof. vm_compute. reflexivity. Qed.
