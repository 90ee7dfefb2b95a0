(* std::map<std::string, V> as an association list; only find, operator[] and size are used, so the
   ordering of the real map does not matter.  Shared vocabulary, not a transcription. *)
Require Import List Ascii Bool Lia.
Import ListNotations.

Definition key := list ascii.
Definition keq (a b : key) : {a = b} + {a <> b} := list_eq_dec ascii_dec a b.

Section V.
Context {V : Type}.
Definition amap := list (key * V).

Fixpoint find (m : amap) (k : key) : option V :=
  match m with
  | [] => None
  | (k', v) :: m' => if keq k k' then Some v else find m' k
  end.
Fixpoint put (m : amap) (k : key) (v : V) : amap :=
  match m with
  | [] => [(k, v)]
  | (k', v') :: m' => if keq k k' then (k', v) :: m' else (k', v') :: put m' k v
  end.
Definition keys (m : amap) : list key := map fst m.

Lemma find_put_same : forall m k v, find (put m k v) k = Some v.
Proof.
  induction m as [|[k' v'] m IH]; intros k v; cbn.
  - destruct (keq k k); [reflexivity|contradiction].
  - destruct (keq k k') as [->|N]; cbn; [destruct (keq k' k'); [reflexivity|contradiction]|]. destruct (keq k k'); [contradiction|apply IH].
Qed.
Lemma find_put_other : forall m k k2 v, k2 <> k -> find (put m k v) k2 = find m k2.
Proof.
  induction m as [|[k' v'] m IH]; intros k k2 v H; cbn.
  - destruct (keq k2 k); [contradiction|reflexivity].
  - destruct (keq k k') as [->|N]; cbn.
    + destruct (keq k2 k'); [contradiction|reflexivity].
    + destruct (keq k2 k'); [reflexivity|now apply IH].
Qed.
Lemma find_put : forall m k k2 v, find (put m k v) k2 = if keq k2 k then Some v else find m k2.
Proof. intros. destruct (keq k2 k) as [->|N]; [apply find_put_same|now apply find_put_other]. Qed.
Lemma find_none : forall m k, find m k = None <-> ~ In k (keys m).
Proof.
  induction m as [|[k' v'] m IH]; intros k; cbn; [tauto|]. destruct (keq k k') as [->|N].
  - split; [discriminate|intros H; exfalso; apply H; now left].
  - rewrite IH. split; [intros H [E|E]; [now apply N|now apply H]|intros H E; apply H; now right].
Qed.
Lemma find_in : forall m k v, find m k = Some v -> In (k, v) m.
Proof.
  induction m as [|[k' v'] m IH]; intros k v H; cbn in *; [discriminate|]. destruct (keq k k') as [->|N].
  - injection H as ->. now left.
  - right. now apply IH.
Qed.
Lemma put_fresh : forall m k v, find m k = None -> put m k v = m ++ [(k, v)].
Proof.
  induction m as [|[k' v'] m IH]; intros k v H; cbn in *; [reflexivity|]. destruct (keq k k') as [->|N]; [discriminate|]. now rewrite IH.
Qed.
Lemma put_put : forall m k v w, put (put m k v) k w = put m k w.
Proof.
  induction m as [|[k' v'] m IH]; intros k v w; cbn.
  - destruct (keq k k); [reflexivity|contradiction].
  - destruct (keq k k') as [->|N]; cbn; [destruct (keq k' k'); [reflexivity|contradiction]|]. destruct (keq k k'); [contradiction|]. now rewrite IH.
Qed.
Lemma find_app : forall a b k, find (a ++ b) k = match find a k with Some v => Some v | None => find b k end.
Proof. induction a as [|[k' v'] a IH]; intros b k; cbn; [reflexivity|]. destruct (keq k k'); [reflexivity|apply IH]. Qed.
Lemma find_map : forall (f : V -> V) m k, find (map (fun kv => (fst kv, f (snd kv))) m) k = option_map f (find m k).
Proof. intros f. induction m as [|[k' v'] m IH]; intros k; cbn; [reflexivity|]. destruct (keq k k'); [reflexivity|apply IH]. Qed.
End V.
Arguments amap : clear implicits.
