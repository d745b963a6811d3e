(** NewIdConc.v -- ShardedLRUCache::NewId, cache.cc:421-424, called by any number
    of threads.  The body [MutexLock lock(&id_mutex_); return ++(last_id_);] is
    four steps: lock, load last_id_, store last_id_ + 1, unlock and return. *)
From Coq Require Import List Arith NArith Lia Bool Permutation.
From Verif Require Import Outcome Mutex.
Import ListNotations.

(** A thread: calls still to make, program counter, register, ids returned so
    far (newest first). *)
Record nthr := mk_nthr { n_todo : nat; n_pc : nat; n_reg : N; n_out : list N }.

Definition id_next (k : nthr) : op N nthr :=
  match n_pc k, n_todo k with
  | 0, S _ => OLock N nthr 0 (mk_nthr (n_todo k) 1 (n_reg k) (n_out k))
  | 1, _ => OStep N nthr 0 (fun g => (g, mk_nthr (n_todo k) 2 g (n_out k)))
  | 2, _ => OStep N nthr 0 (fun _ => (u64 (n_reg k + 1), mk_nthr (n_todo k) 3 (u64 (n_reg k + 1)) (n_out k)))
  | 3, _ => OUnlock N nthr 0 (mk_nthr (pred (n_todo k)) 0 (n_reg k) (n_reg k :: n_out k))
  | _, _ => OStop N nthr
  end.
Definition id_inside (k : nthr) : option nat :=
  match n_pc k with 1 | 2 | 3 => Some 0 | _ => None end.

(** last_id_ starts at 0 (cache.cc:393); thread [t] will call NewId [todo t] times. *)
Definition id_start (todo : nat -> nat) : conf N nthr :=
  mk_conf N nthr (fun _ => 0%N) (fun _ => None) (fun t => mk_nthr (todo t) 0 0 []).

(** All ids returned so far by threads 0 .. n-1. *)
Definition all_ids (n : nat) (c : conf N nthr) : list N :=
  concat (map (fun t => n_out (thr N nthr c t)) (seq 0 n)).

Lemma id_disciplined : disciplined N nthr id_next id_inside.
Proof.
  intros [todo pc reg out]. unfold id_next, id_inside. cbn [n_pc n_todo].
  destruct pc as [|[|[|[|pc]]]]; [destruct todo| | | |]; cbn; auto.
Qed.

Section Ids.
  Variable n : nat.                      (* threads *)
  Variable todo : nat -> nat.
  Hypothesis todo_n : forall t, n <= t -> todo t = 0.
  Definition outs (th : nat -> nthr) : list N := concat (map (fun t => n_out (th t)) (seq 0 n)).
  Definition left (th : nat -> nthr) : nat := list_sum (map (fun t => n_todo (th t)) (seq 0 n)).
  Definition calls : nat := list_sum (map todo (seq 0 n)).
  Hypothesis few : (N.of_nat calls < 2 ^ 64)%N.

  Lemma concat_upd (th : nat -> nthr) t k r : t < n -> n_out k = r :: n_out (th t) ->
    Permutation (outs (upd th t k)) (r :: outs th).
  Proof.
    unfold outs. intros Ht E.
    assert (K : forall m s, s <= t < s + m ->
      Permutation (concat (map (fun x => n_out (upd th t k x)) (seq s m)))
                  (r :: concat (map (fun x => n_out (th x)) (seq s m))) ).
    { induction m as [|m IH]; intros s Hs; [lia|]. cbn [seq map concat].
      destruct (Nat.eq_dec s t) as [->|Hne].
      - rewrite upd_eq, E. cbn [app]. apply perm_skip. apply Permutation_app_head.
        erewrite map_ext_in; [reflexivity|]. intros x Hx. apply in_seq in Hx. cbn. now rewrite upd_ne by lia.
      - rewrite upd_ne by auto. etransitivity; [apply Permutation_app_head, (IH (S s)); lia|].
        symmetry. apply Permutation_middle. }
    apply K. lia.
  Qed.
  Lemma outs_same th th' : (forall t, t < n -> n_out (th' t) = n_out (th t)) -> outs th' = outs th.
  Proof.
    intros E. unfold outs. f_equal. apply map_ext_in. intros t Ht. apply in_seq in Ht. apply E. lia.
  Qed.
  Lemma left_upd th t k : t < n -> n_todo (th t) = S (n_todo k) -> S (left (upd th t k)) = left th.
  Proof.
    unfold left. intros Ht E.
    assert (K : forall m s, s <= t < s + m ->
      S (list_sum (map (fun x => n_todo (upd th t k x)) (seq s m))) = list_sum (map (fun x => n_todo (th x)) (seq s m))).
    { induction m as [|m IH]; intros s Hs; [lia|]. cbn [seq map]. unfold list_sum in *. cbn [fold_right].
      destruct (Nat.eq_dec s t) as [->|Hne].
      - rewrite upd_eq, E. cbn [Nat.add]. f_equal. f_equal.
        erewrite map_ext_in; [reflexivity|]. intros x Hx. apply in_seq in Hx. cbn. now rewrite upd_ne by lia.
      - rewrite upd_ne by auto. rewrite <- (IH (S s)) by lia. lia. }
    apply K. lia.
  Qed.

  (** With atomic sections: the ids given out are exactly 1 .. last_id_. *)
  Record ainv (a : aconf N nthr) : Prop := {
    ai_pc : forall t, n_pc (athr N nthr a t) = 0;
    ai_out : forall t, n <= t -> n_todo (athr N nthr a t) = 0;
    ai_sum : length (outs (athr N nthr a)) + left (athr N nthr a) = calls;
    ai_last : adata N nthr a 0 = N.of_nat (length (outs (athr N nthr a)));
    ai_ids : Permutation (outs (athr N nthr a)) (map N.of_nat (seq 1 (length (outs (athr N nthr a))))) }.

  Lemma sect_inv g k k' g' : sect N nthr id_next 0 k g k' g' -> n_pc k = 1 ->
    g' = u64 (g + 1) /\ k' = mk_nthr (pred (n_todo k)) 0 (u64 (g + 1)) (u64 (g + 1) :: n_out k).
  Proof.
    intros S Hp. destruct k as [td pc reg out]. cbn in Hp. subst pc.
    inversion S; subst; cbn in H; try discriminate. inversion H; subst f. clear H S. inversion H0; subst g1 k1. clear H0.
    inversion H1; subst; cbn in H; try discriminate. inversion H; subst f. clear H H1. inversion H0; subst g1 k1. clear H0.
    inversion H2; subst; cbn in H; try discriminate. inversion H; subst. auto.
  Qed.

  Lemma astep_inv a t a' : ainv a -> astep N nthr id_next t a a' -> ainv a'.
  Proof.
    intros I S. destruct S as [l k k' g' E Sc|k E].
    - pose proof (ai_pc _ I t) as Hp. pose proof (ai_out _ I t) as Ho. set (th := athr N nthr a) in *.
      unfold id_next in E. rewrite Hp in E. destruct (n_todo (th t)) as [|m] eqn:Em; [discriminate|].
      inversion E; subst l k. clear E.
      destruct (sect_inv _ _ _ _ Sc eq_refl) as [-> ->]. cbn [n_todo n_out pred] in *. clear Sc.
      assert (Ht : t < n). { destruct (le_lt_dec n t) as [Hn|]; auto. specialize (Ho Hn). discriminate. }
      set (k := mk_nthr m 0 (u64 (adata N nthr a 0 + 1)) (u64 (adata N nthr a 0 + 1) :: n_out (th t))).
      assert (P := concat_upd th t k (u64 (adata N nthr a 0 + 1)) Ht eq_refl).
      assert (Le : S (left (upd th t k)) = left th) by (apply left_upd; auto).
      pose proof (ai_sum _ I) as Sum. pose proof (ai_last _ I) as La. fold th in Sum, La.
      assert (Lo : length (outs (upd th t k)) = S (length (outs th))) by (apply Permutation_length in P; exact P).
      assert (Ex : u64 (adata N nthr a 0 + 1) = N.of_nat (S (length (outs th)))).
      { rewrite La. unfold u64. rewrite N.mod_small by lia. lia. }
      constructor; cbn [adata athr].
      + intros t'. destruct (Nat.eq_dec t' t) as [->|Hne]; [now rewrite upd_eq|]. rewrite upd_ne by auto. apply (ai_pc _ I).
      + intros t' Hn. rewrite upd_ne by lia. now apply (ai_out _ I).
      + rewrite Lo. lia.
      + rewrite upd_eq, Lo. exact Ex.
      + rewrite Lo, P, Ex. rewrite seq_S, map_app. cbn [map]. 
        pose proof (ai_ids _ I) as Pi. fold th in Pi. etransitivity; [apply perm_skip, Pi|].
        apply Permutation_cons_append.
    - pose proof (ai_pc _ I t) as Hp. unfold id_next in E. rewrite Hp in E. destruct (n_todo _); discriminate.
  Qed.

  Lemma part_out l k0 g0 k g : part N nthr id_next l k0 g0 k g -> n_pc k0 = 1 ->
    n_out k = n_out k0 /\ (n_pc k = 1 \/ n_pc k = 2 \/ n_pc k = 3).
  Proof.
    intros P Hp. induction P as [|k0 g0 k g f g1 k1 P IH E Ef|k0 g0 k g k1 P IH E].
    - auto.
    - destruct (IH Hp) as [I1 I2]. rewrite <- I1. unfold id_next in E.
      destruct I2 as [I2|[I2|I2]]; rewrite I2 in E; try discriminate; inversion E; subst f l; inversion Ef; subst; cbn; auto.
    - destruct (IH Hp) as [I1 I2]. unfold id_next in E.
      destruct I2 as [I2|[I2|I2]]; rewrite I2 in E; discriminate.
  Qed.

  Theorem ids_exact c : steps N nthr id_next (id_start todo) c ->
    Permutation (all_ids n c) (map N.of_nat (seq 1 (length (all_ids n c)))).
  Proof.
    intros St.
    destruct (atomic_sections N nthr id_next id_inside id_disciplined (fun _ => 0%N) (fun t => mk_nthr (todo t) 0 0 []) c
               (fun _ => eq_refl) St) as (a & As & S).
    assert (IA : ainv a).
    { clear S St. induction As as [|a1 a2 t As IH A1].
      - assert (Z : outs (fun t => mk_nthr (todo t) 0 0 []) = []).
        { unfold outs. cbn [n_out]. induction (seq 0 n) as [|x l IH]; cbn; auto. }
        constructor; cbn [adata athr]; auto.
        + rewrite Z. reflexivity.
        + rewrite Z. reflexivity.
        + rewrite Z. constructor.
      - eapply astep_inv; eauto. }
    assert (E : all_ids n c = outs (athr N nthr a)).
    { unfold all_ids. fold (outs (thr N nthr c)). apply outs_same. intros t _.
      destruct (id_inside (thr N nthr c t)) as [l|] eqn:Ei.
      - destruct (sim_in _ _ _ _ _ _ S t l Ei) as (k & En & P).
        pose proof (ai_pc _ IA t) as Hp. unfold id_next in En. rewrite Hp in En.
        destruct (n_todo (athr N nthr a t)) as [|m] eqn:Em; [discriminate|]. inversion En; subst l k.
        now destruct (part_out _ _ _ _ _ P eq_refl) as [-> _].
      - now rewrite (sim_out _ _ _ _ _ _ S t Ei). }
    rewrite E. apply (ai_ids _ IA).
  Qed.
End Ids.
