(** The brute-force search of the template example finds the nearest points. *)
From Verif Require Import Base BaseProofs Num Vec Lin FactorModel EstModel EstProofs KdSpec TemplateModel TemplateSpec.

Section Queue.
Context {D : num}.
Notation entry := (nat * car D)%type.

Lemma swo_incl (l l' : list entry) : incl l' l -> swo_on nearer l -> swo_on nearer l'.
Proof.
  intros I (A & B & C). split; [intros x X; apply A, I, X|]. split.
  - intros x y z X Y Z. apply B; apply I; assumption.
  - intros x y z X Y Z. apply C; apply I; assumption.
Qed.
Lemma swo_ok (ok : car D -> Prop) (l : list entry) : order_laws D ok -> (forall x, In x l -> ok (snd x)) -> swo_on nearer l.
Proof.
  intros O H. unfold nearer. split; [intros x X; apply (ol_irrefl D ok O), H, X|]. split.
  - intros x y z X Y Z. apply (ol_trans D ok O); apply H; assumption.
  - intros x y z X Y Z. apply (ol_cotrans D ok O); apply H; assumption.
Qed.

Lemma list_contract : queue_contract (D := D) push_list pop_list.
Proof.
  exists (fun _ => True). split; [exact I|]. split; [intros; split; [exact I|reflexivity]|].
  induction q as [|x q IH]; intros _ N W; [congruence|]. destruct q as [|y q'].
  - exists x, []. split; [reflexivity|]. split; [exact I|]. split; [reflexivity|]. intros y [<-|[]]. apply W. left. reflexivity.
  - destruct (IH I ltac:(discriminate) (swo_incl _ _ (incl_tl x (incl_refl _)) W)) as (top & q1 & E & _ & P & M).
    change (pop_list (x :: y :: q')) with (let* (top, rest) := pop_list (y :: q') in if nearer x top then Ok (top, x :: rest) else Ok (x, y :: q')).
    rewrite E. cbn [bind]. assert (T : In top (y :: q')) by (rewrite P; left; reflexivity).
    destruct (nearer x top) eqn:L.
    + exists top, (x :: q1). split; [reflexivity|]. split; [exact I|]. split; [rewrite P; apply perm_swap|].
      intros z [<-|Z]; [|apply M, Z]. destruct (nearer top x) eqn:L2; [|reflexivity].
      destruct W as (A & B & _). rewrite <- (A x (or_introl eq_refl)). symmetry.
      apply (B x top x); auto; [left; reflexivity|right; exact T|left; reflexivity].
    + exists x, (y :: q'). split; [reflexivity|]. split; [exact I|]. split; [reflexivity|].
      intros z [<-|Z]; [apply W; left; reflexivity|]. destruct W as (_ & _ & C).
      apply (C x top z); auto; [left; reflexivity|right; exact T|right; exact Z].
Qed.
End Queue.

Lemma upd_skipn {A} (l : list A) : forall i v, i < length l -> skipn i (upd l i v) = v :: skipn (S i) l.
Proof. induction l as [|a l IH]; intros [|i] v L; cbn in *; try lia; auto. apply IH. lia. Qed.

Section Search.
Context {D : fld} (ok : car D -> Prop) (O : order_laws D ok).
Notation entry := (nat * car D)%type.
Context (push : entry -> list entry -> list entry) (pop : list entry -> outcome (entry * list entry)) (heap : list entry -> Prop).
Context (H0 : heap []).
Context (HPush : forall x q, heap q -> swo_on nearer (x :: q) -> heap (push x q) /\ Permutation (x :: q) (push x q)).
Context (HPop : forall q, heap q -> q <> [] -> swo_on nearer q -> exists top q', pop q = Ok (top, q') /\ heap q' /\
       Permutation q (top :: q') /\ forall y, In y q -> nearer top y = false).
Context (points : list (my_point D)) (pt : vec4 D).
Notation dist := (fun i : nat => match nth_error points i with Some p => my_dist pt p | None => nzero end).
Context (Hok : forall i, i < length points -> ok (dist i)).
Context (k : Z) (kn : nat) (Hk : size_of_int k = Z.of_nat kn).

Definition visited (m : nat) (q : list entry) : Prop :=
  heap q /\ length q <= kn /\ exists out, Permutation (map (fun i => (i, dist i)) (seq 0 m)) (q ++ out) /\
    (out = [] \/ length q = kn) /\ forall o c, In o out -> In c q -> nearer o c = false.

Lemma entries_ok m q out x : m <= length points -> Permutation (map (fun i => (i, dist i)) (seq 0 m)) (q ++ out) -> In x (q ++ out) -> ok (snd x).
Proof using Hok push pop.
  clear HPush HPop Hk.
  intros L P I. rewrite <- P in I. apply in_map_iff in I as (i & <- & I). apply in_seq in I. apply Hok. lia.
Qed.

Lemma visit_step m q : m < length points -> visited m q ->
  exists q', my_visit push pop points pt k q m = Ok q' /\ visited (S m) q'.
Proof using O HPush HPop Hok Hk.
  intros L (HH & Lq & out & P & F & M). unfold my_visit.
  destruct (get_lt points m L) as (p & Ep). rewrite Ep. cbn [bind]. apply get_Ok in Ep.
  assert (Ed : my_dist pt p = dist m) by (cbv beta; rewrite Ep; reflexivity). rewrite Ed.
  set (x := (m, dist m)).
  assert (P1 : Permutation (map (fun i => (i, dist i)) (seq 0 (S m))) ((x :: q) ++ out)).
  { rewrite seq_S, map_app. cbn [map]. fold x. rewrite Permutation_app_comm. cbn [app]. constructor. exact P. }
  assert (W : forall l, incl l ((x :: q) ++ out) -> swo_on nearer l).
  { intros l I. apply (swo_ok ok); [exact O|]. intros y Y. eapply (entries_ok (S m)); [lia|exact P1|apply I, Y]. }
  destruct (HPush x q HH) as (HH1 & P2). { apply W. intros y Y. apply in_or_app. left. exact Y. }
  set (q1 := push x q) in *. rewrite Hk.
  assert (L1 : length q1 = S (length q)) by (rewrite <- (Permutation_length P2); reflexivity).
  destruct (Z.ltb_spec (Z.of_nat kn) (Z.of_nat (length q1))) as [C|C].
  - assert (Eq : length q = kn) by lia.
    destruct (HPop q1 HH1) as (top & q2 & E & HH2 & P3 & T).
    { intros E. rewrite E in L1. discriminate. }
    { apply W. intros y Y. rewrite <- P2 in Y. apply in_or_app. left. exact Y. }
    rewrite E. cbn [bind]. exists q2. split; [reflexivity|].
    assert (L2 : length q1 = S (length q2)) by (rewrite (Permutation_length P3); reflexivity).
    assert (PX : Permutation (x :: q) (top :: q2)) by (rewrite P2; exact P3).
    split; [exact HH2|]. split; [lia|]. exists (top :: out). split.
    { rewrite P1, PX. cbn [app]. apply Permutation_middle. }
    split; [right; lia|]. intros o c [<-|Io] Ic.
    + apply T. rewrite P3. right. exact Ic.
    + assert (Ic' : In c (x :: q)) by (rewrite PX; right; exact Ic). destruct Ic' as [<-|Ic']; [|apply M; assumption].
      assert (It : In top (x :: q)) by (rewrite PX; left; reflexivity). destruct It as [It|It].
      * (* top = x would occur twice *)
        exfalso. assert (N : NoDup ((x :: q) ++ out)).
        { rewrite <- P1. apply FinFun.Injective_map_NoDup; [|apply seq_NoDup]. intros a b E1. injection E1. auto. }
        cbn [app] in N. assert (PN : NoDup (top :: q2 ++ out)).
        { eapply Permutation_NoDup; [|exact N]. change (Permutation ((x :: q) ++ out) ((top :: q2) ++ out)). rewrite PX. reflexivity. }
        rewrite <- It in PN. apply NoDup_cons_iff in PN as [PN _]. apply PN, in_or_app. left. exact Ic.
      * destruct (W ((x :: q) ++ out) (incl_refl _)) as (_ & _ & Co).
        apply (Co o top x); [apply in_or_app; right; exact Io|apply in_or_app; left; right; exact It|left; reflexivity|apply M; assumption|].
        apply T. rewrite <- P2. left. reflexivity.
  - exists q1. split; [reflexivity|]. split; [exact HH1|]. split; [lia|]. destruct F as [->|F]; [|lia].
    exists []. split; [rewrite P1, P2; reflexivity|]. split; [left; reflexivity|]. intros o c [].
Qed.

Lemma visit_all m : m <= length points -> exists q, foldM (my_visit push pop points pt k) (seq 0 m) [] = Ok q /\ visited m q.
Proof using O HPush HPop Hok Hk H0.
  induction m as [|m IH]; intros L.
  - exists []. split; [reflexivity|]. split; [exact H0|]. split; [cbn; lia|]. exists []. split; [reflexivity|]. split; [left; reflexivity|]. intros o c [].
  - destruct IH as (q & E & V); [lia|]. destruct (visit_step m q) as (q' & E' & V'); [lia|exact V|]. exists q'. split; [|exact V'].
    rewrite seq_S, foldM_app, E. cbn [bind foldM]. rewrite Nat.add_0_l, E'. reflexivity.
Qed.

Lemma drain_sorted n : forall q indices dists, length q = n -> heap q -> (forall x, In x q -> ok (snd x)) ->
  n <= length indices -> n <= length dists ->
  exists res, Permutation q res /\ StronglySorted (fun a b => nlt (snd b) (snd a) = false) res /\
    my_drain pop n q indices dists = Ok (map fst res ++ skipn n indices, map snd res ++ skipn n dists).
Proof using O HPop push.
  clear HPush Hk Hok.
  induction n as [|n IH]; intros q indices dists L HH Q LI LD.
  - destruct q; [|discriminate]. exists []. split; [reflexivity|]. split; [constructor|]. reflexivity.
  - destruct q as [|a q0]; [discriminate|]. cbn [my_drain].
    destruct (HPop (a :: q0) HH) as (top & q2 & E & HH2 & P & T); [discriminate|apply (swo_ok ok); assumption|]. rewrite E. cbn [bind].
    rewrite L. replace (S n - 1) with n by lia. rewrite !set_Ok by lia. cbn [bind].
    assert (L2 : length q2 = n). { apply Permutation_length in P. cbn [length] in *. lia. }
    destruct (IH q2 (upd indices n (fst top)) (upd dists n (snd top)) L2 HH2) as (res & PR & S & ED).
    { intros x X. apply Q. rewrite P. right. exact X. }
    { rewrite upd_length. lia. } { rewrite upd_length. lia. }
    exists (res ++ [top]). split; [rewrite P, PR; apply Permutation_cons_append|]. split.
    + clear -S T P PR. assert (M : forall y, In y res -> nlt (snd top) (snd y) = false).
      { intros y Y. apply T. rewrite P. right. rewrite PR. exact Y. }
      clear -S M. induction S as [|x l S IH F]; cbn [app]; [repeat constructor|]. constructor.
      * apply IH. intros y Y. apply M. right. exact Y.
      * apply Forall_app. split; [exact F|]. constructor; [|constructor]. apply M. left. reflexivity.
    + rewrite ED, !upd_skipn by lia. rewrite !map_app, <- !app_assoc. reflexivity.
Qed.

Theorem knn_search_nearest indices dists : Nat.min kn (length points) <= length indices -> Nat.min kn (length points) <= length dists ->
  exists res, nearest_k dist (length points) kn res /\
    my_knn_search push pop points pt k indices dists =
      Ok (length res, map fst res ++ skipn (length res) indices, map snd res ++ skipn (length res) dists).
Proof using O HPush HPop Hok Hk H0.
  intros LI LD. destruct (visit_all (length points) (le_n _)) as (q & E & HH & Lq & out & P & F & M).
  assert (Ln : length points = length q + length out). { apply Permutation_length in P. rewrite map_length, seq_length, app_length in P. exact P. }
  assert (Lm : length q = Nat.min kn (length points)). { destruct F as [->|F]; cbn [length] in *; lia. }
  destruct (drain_sorted (length q) q indices dists eq_refl HH) as (res & PR & S & ED); [|lia|lia|].
  { intros x X. eapply (entries_ok (length points)); [lia|exact P|apply in_or_app; left; exact X]. }
  exists res. assert (Lr : length res = length q) by (symmetry; apply Permutation_length, PR).
  split; [|unfold my_knn_search; rewrite E; cbn [bind]; rewrite ED, Lr; reflexivity].
  assert (PA : Permutation (map (fun i => (i, dist i)) (seq 0 (length points))) (res ++ out)) by (rewrite <- PR; exact P).
  assert (PF : Permutation (seq 0 (length points)) (map fst res ++ map fst out)).
  { rewrite <- map_app, <- PA, map_map. cbn [fst]. rewrite map_id. reflexivity. }
  split; [|split; [|split; [exact S|split; [lia|]]]].
  - assert (N : NoDup (map fst res ++ map fst out)) by (rewrite <- PF; apply seq_NoDup).
    clear -N. induction (map fst res) as [|a l IH]; [constructor|]. cbn [app] in N. inversion N; subst. constructor; [|auto].
    intros I. apply H1, in_or_app. left. exact I.
  - intros i d I. assert (J : In (i, d) (res ++ out)) by (apply in_or_app; left; exact I). rewrite <- PA in J.
    apply in_map_iff in J as (j & Ej & J). apply in_seq in J. injection Ej as -> <-. split; [lia|reflexivity].
  - intros j Lj Nj c Ic. assert (J : In (j, dist j) (res ++ out)). { rewrite <- PA. apply in_map_iff. exists j. split; [reflexivity|apply in_seq; lia]. }
    apply in_app_or in J as [J|J]; [exfalso; apply Nj, in_map_iff; exists (j, dist j); auto|].
    apply (M _ c J). rewrite PR. exact Ic.
Qed.
End Search.
