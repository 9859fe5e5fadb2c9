(** What the channels of a feature map are ranked by (C239). *)
From Coq Require Import QArith Permutation.
From Verif Require Import Prelude Featmap_Model.
Open Scope list_scope.
Open Scope Q_scope.

(** The sum of numbers added one after the other. *)
Inductive sums : list Q -> Q -> Prop :=
| sums_nil : sums [] 0
| sums_cons x l s s' : sums l s -> s' == x + s -> sums (x :: l) s'.
Lemma sums_app l l' s s' : sums l s -> sums l' s' -> sums (l ++ l') (s + s').
Proof.
  intros H H'. induction H as [|x l s t H IH E].
  - destruct H' as [|x l s t H E]; [constructor|]. eapply sums_cons; [exact H|]. rewrite E. ring.
  - cbn. eapply sums_cons; [exact IH|]. rewrite E. ring.
Qed.
Lemma sums_qsum l : sums l (qsum l).
Proof. induction l as [|x l IH]; [constructor|]. eapply sums_cons; [exact IH|]. reflexivity. Qed.
Lemma sums_det l s : sums l s -> s == qsum l.
Proof. induction 1 as [|x l s t H IH E]; [reflexivity|]. cbn. rewrite E, IH. reflexivity. Qed.

(** It is the sum of all the pixels of the channel. *)
Theorem C239_total : forall p : plane, sums (concat p) (total p).
Proof.
  intros p. unfold total. induction p as [|row p IH]; [constructor|]. cbn [map concat qsum fold_right]. apply sums_app; [apply sums_qsum|exact IH].
Qed.
Theorem C239_total_unique : forall (p : plane) s, sums (concat p) s -> s == total p.
Proof. intros p s H. rewrite (sums_det _ _ H). symmetry. apply sums_det, C239_total. Qed.
Example C239_total_ex : total [[1; 2]; [3; 4 # 3]] == 22 # 3.
Proof. reflexivity. Qed.
Print Assumptions C239_total.
Print Assumptions C239_total_unique.
