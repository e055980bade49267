(** Proofs about the construction and copying of rules (Rule.v). *)

From Coq Require Import Ascii String NArith ZArith Bool List.
From Verif Require Import Base StringUtil Tags Dom NodeUtil Values Match Rule RuleSpec.
Import ListNotations.

Section RuleInd.
Variable P : rule -> Prop.
Hypothesis H : forall c n l ms cs t o g name,
  (forall c', c = Some c' -> P c') -> (forall n', n = Some n' -> P n') -> Forall P l ->
  P (mk_rule c n l ms cs t o g name).
Fixpoint rule_ind2 (r : rule) : P r :=
  match r with
  | mk_rule c n l ms cs t o g name =>
      H c n l ms cs t o g name
        (match c as c0 return forall c', c0 = Some c' -> P c' with
         | Some x => fun c' e => match e in _ = y return match y with Some z => P z | None => True end with
                                 | eq_refl => rule_ind2 x end
         | None => fun c' e => match e in _ = y return match y with Some z => P z | None => True end with
                               | eq_refl => I end
         end)
        (match n as c0 return forall c', c0 = Some c' -> P c' with
         | Some x => fun c' e => match e in _ = y return match y with Some z => P z | None => True end with
                                 | eq_refl => rule_ind2 x end
         | None => fun c' e => match e in _ = y return match y with Some z => P z | None => True end with
                               | eq_refl => I end
         end)
        ((fix go (l : list rule) : Forall P l :=
            match l with
            | [] => Forall_nil P
            | x :: l' => Forall_cons x (rule_ind2 x) (go l')
            end) l)
  end.
End RuleInd.

Section MtchInd.
Variable P : mtch -> Prop.
Hypothesis Hneg : forall ms, Forall (fun om => forall m, om = Some m -> P m) ms -> P (NegateMatch ms).
Hypothesis Hother : forall m, (forall ms, m <> NegateMatch ms) -> P m.
Fixpoint mtch_ind2 (m : mtch) : P m.
Proof.
  destruct m as [z|a t|z|f|f t|ms|a b0 o|o|rx]; try (apply Hother; congruence).
  apply Hneg. induction ms as [|[m|] ms IHms]; constructor.
  - intros m' E. injection E as <-. apply mtch_ind2.
  - exact IHms.
  - discriminate.
  - exact IHms.
Qed.
End MtchInd.

Lemma map_id_in {A} (f : A -> A) l : (forall x, In x l -> f x = x) -> map f l = l.
Proof.
  induction l as [|x l IH]; simpl; intros Hf; [reflexivity|].
  rewrite Hf by now left. f_equal. apply IH. auto.
Qed.

Lemma vtest_clone_id t : vtest_clone t = t.
Proof.
  revert t. fix IH 1. intros t. destruct t as [l|l|l|w|l|rx|[t'|]]; simpl; try reflexivity.
  now rewrite IH.
Qed.

Lemma option_map_id {A} (f : A -> A) o : (forall x, f x = x) -> option_map f o = o.
Proof. intros Hf. destruct o; simpl; [now rewrite Hf|reflexivity]. Qed.

Lemma mtch_clone_id m : mtch_clone m = m.
Proof.
  induction m as [ms Hms|m Hm] using mtch_ind2.
  - simpl. f_equal. induction Hms as [|om ms H _ IH]; simpl; [reflexivity|].
    rewrite IH. f_equal. destruct om as [m|]; [|reflexivity]. now rewrite H.
  - destruct m; simpl; try reflexivity; try (rewrite option_map_id by apply vtest_clone_id; reflexivity).
    exfalso. now apply (Hm ms).
Qed.

Lemma pipe_clone_id p : pipe_clone p = p.
Proof.
  revert p. fix IH 1. intros [t [p'|]]; simpl; [now rewrite IH|reflexivity].
Qed.

Lemma capture_clone_id c : capture_clone c = c.
Proof. destruct c; simpl; now rewrite option_map_id by apply pipe_clone_id. Qed.

Theorem rule_copy_id r : rule_copy r = r.
Proof.
  induction r as [c n l ms cs t o g name Hc Hn Hl] using rule_ind2. cbn [rule_copy].
  rewrite (map_id_in (option_map mtch_clone)) by (intros; apply option_map_id, mtch_clone_id).
  rewrite (map_id_in (option_map capture_clone)) by (intros; apply option_map_id, capture_clone_id).
  rewrite (map_id_in rule_copy) by (rewrite Forall_forall in Hl; exact Hl).
  destruct c as [c|]; [rewrite (Hc c eq_refl)|]; (destruct n as [n|]; [rewrite (Hn n eq_refl)|]); reflexivity.
Qed.

(** ** append *)

Lemma siblings_append r x : siblings (append_next r x) = siblings r ++ siblings x.
Proof.
  induction r as [c n l ms cs t o g name _ Hn _] using rule_ind2.
  destruct n as [n|]; simpl; [|reflexivity]. now rewrite (Hn n eq_refl).
Qed.

Lemma siblings_nonempty r : siblings r <> [].
Proof. destruct r as [c [n|] l ms cs t o g name]; discriminate. Qed.

Lemma siblings_inj r r' : siblings r = siblings r' -> r = r'.
Proof.
  revert r'. induction r as [c n l ms cs t o g name _ Hn _] using rule_ind2.
  intros [c' n' l' ms' cs' t' o' g' name'].
  destruct n as [n|], n' as [n'|]; simpl; intros E.
  - injection E as -> -> -> -> -> -> -> -> E. now rewrite (Hn n eq_refl n' E).
  - injection E as -> -> -> -> -> -> -> -> E. now apply siblings_nonempty in E.
  - injection E as -> -> -> -> -> -> -> -> E. symmetry in E. now apply siblings_nonempty in E.
  - injection E as -> -> -> -> -> -> -> ->. reflexivity.
Qed.

Lemma append_next_spec r x :
  siblings (append_next r x) = siblings r ++ siblings x.
Proof. apply siblings_append. Qed.

Lemma append_child_spec r x :
  child_rules (append_child r x) = child_rules r ++ siblings x /\
  same_but_child r (append_child r x).
Proof.
  destruct r as [[c|] n l ms cs t o g name]; (split; [|repeat split]); simpl; [apply siblings_append|reflexivity].
Qed.

Lemma append_nested_spec r x :
  r_nested (append_nested r x) = r_nested r ++ [x] /\ same_but_nested r (append_nested r x).
Proof. destruct r. repeat split. Qed.

Lemma append_match_spec r m :
  r_matches (append_match r m) = r_matches r ++ [m] /\ same_but_matches r (append_match r m).
Proof. destruct r. repeat split. Qed.

Lemma append_capture_spec r x :
  r_captures (append_capture r x) = r_captures r ++ [x] /\ same_but_captures r (append_capture r x).
Proof. destruct r. repeat split. Qed.
