(** Common vocabulary of the model: outcomes of C++ functions and
    bounds-checked memory access.  Nothing here models a particular function
    of /repo; it fixes what "throws" and "undefined behaviour" mean. *)
From stdpp Require Export prelude.

(** Outcome of running a piece of C++:
    [Ok a]  - it returned [a];
    [Throw] - a throwingAssert (util/Assertion.hpp:88-95) or a standard
              library function threw;
    [UB]    - undefined behaviour: access outside an array, dereferencing an
              end iterator, reading an empty optional, ... *)
Inductive res (A : Type) : Type :=
| Ok (a : A)
| Throw
| UB.
Arguments Ok {A} _.
Arguments Throw {A}.
Arguments UB {A}.

Global Instance res_ret : MRet res := fun A a => Ok a.
Global Instance res_bind : MBind res := fun A B f r =>
  match r with Ok a => f a | Throw => Throw | UB => UB end.
Global Instance res_fmap : FMap res := fun A B f r =>
  match r with Ok a => Ok (f a) | Throw => Throw | UB => UB end.

(** Read of array element [i]. *)
Definition rd {A} (l : list A) (i : nat) : res A :=
  match l !! i with Some a => Ok a | None => UB end.
(** Write of array element [i]. *)
Definition wr {A} (l : list A) (i : nat) (a : A) : res (list A) :=
  if decide (i < length l) then Ok (<[i := a]> l) else UB.
(** throwingAssert (util/Assertion.hpp:88-95). *)
Definition throwing_assert (b : bool) : res unit :=
  if b then Ok tt else Throw.
(** Left-to-right execution of a loop body over a list. *)
Fixpoint for_each {A S} (f : A -> S -> res S) (l : list A) (s : S) : res S :=
  match l with
  | [] => Ok s
  | a :: l => s' ← f a s; for_each f l s'
  end.
(** Left-to-right [transform]. *)
Fixpoint map_res {A B} (f : A -> res B) (l : list A) : res (list B) :=
  match l with
  | [] => Ok []
  | a :: l => b ← f a; bs ← map_res f l; Ok (b :: bs)
  end.

Definition is_ok {A} (r : res A) : Prop := exists a, r = Ok a.

Lemma bind_ok {A B} (f : A -> res B) a : (Ok a ≫= f) = f a.
Proof. reflexivity. Qed.
Lemma bind_inv {A B} (f : A -> res B) r b :
  (r ≫= f) = Ok b -> exists a, r = Ok a /\ f a = Ok b.
Proof. destruct r; simpl; intros H; try discriminate; eauto. Qed.
Lemma rd_ok {A} (l : list A) i a : l !! i = Some a -> rd l i = Ok a.
Proof. unfold rd. intros ->. reflexivity. Qed.
Lemma rd_inv {A} (l : list A) i a : rd l i = Ok a -> l !! i = Some a.
Proof. unfold rd. destruct (l !! i); congruence. Qed.
Lemma wr_ok {A} (l : list A) i a : i < length l -> wr l i a = Ok (<[i := a]> l).
Proof. unfold wr. intros ?. rewrite decide_True; auto. Qed.
Lemma wr_inv {A} (l l' : list A) i a :
  wr l i a = Ok l' -> i < length l /\ l' = <[i := a]> l.
Proof. unfold wr. case_decide; intros; simplify_eq; auto. Qed.
Lemma for_each_app {A S} (f : A -> S -> res S) l1 l2 s :
  for_each f (l1 ++ l2) s = (for_each f l1 s ≫= for_each f l2).
Proof.
  revert s. induction l1 as [|a l1 IH]; intros s; simpl; [reflexivity|].
  destruct (f a s); simpl; auto.
Qed.
Lemma for_each_ok {A S} (f : A -> S -> res S) (g : S -> A -> S) l s :
  (forall a s, a ∈ l -> f a s = Ok (g s a)) ->
  for_each f l s = Ok (foldl g s l).
Proof.
  revert s. induction l as [|a l IH]; intros s H; simpl; [reflexivity|].
  rewrite (H a s) by (left; reflexivity). simpl. apply IH.
  intros b s' Hb. apply H. right. exact Hb.
Qed.
(** Invariant rule for [for_each]. *)
Lemma for_each_inv {A S} (f : A -> S -> res S) (I : list A -> S -> Prop) :
  forall l pre s, I pre s ->
  (forall pre' a s', (exists post, pre ++ l = pre' ++ a :: post) ->
     I pre' s' -> exists s'', f a s' = Ok s'' /\ I (pre' ++ [a]) s'') ->
  exists s', for_each f l s = Ok s' /\ I (pre ++ l) s'.
Proof.
  induction l as [|a l IH]; intros pre s H Hstep; simpl.
  - exists s. rewrite app_nil_r. auto.
  - destruct (Hstep pre a s) as (s'' & Hf & HI); [eauto|exact H|].
    rewrite Hf. simpl.
    destruct (IH (pre ++ [a]) s'' HI) as (s' & Hs' & HI').
    + intros pre' a' s' (post & Hpost) HI'. apply Hstep; [|exact HI'].
      exists post. rewrite <- Hpost, <- app_assoc. reflexivity.
    + exists s'. split; [exact Hs'|]. rewrite <- app_assoc in HI'. exact HI'.
Qed.
Lemma map_res_ok {A B} (f : A -> res B) (g : A -> B) l :
  (forall a, a ∈ l -> f a = Ok (g a)) -> map_res f l = Ok (map g l).
Proof.
  induction l as [|a l IH]; intros H; simpl; [reflexivity|].
  rewrite (H a) by (left; reflexivity). simpl. rewrite IH; [reflexivity|].
  intros b Hb. apply H. right. exact Hb.
Qed.
Lemma map_res_inv {A B} (f : A -> res B) l bs :
  map_res f l = Ok bs -> Forall2 (fun a b => f a = Ok b) l bs.
Proof.
  revert bs. induction l as [|a l IH]; intros bs H; simpl in H.
  - injection H as <-. constructor.
  - apply bind_inv in H. destruct H as (b & Hb & H).
    apply bind_inv in H. destruct H as (bs' & Hbs & H).
    injection H as <-. constructor; auto.
Qed.
