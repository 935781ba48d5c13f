(** Proofs about the type checker. *)

From Coq Require Import List Bool Arith Lia.
From Verif Require Import TypeModel TypeSpec.
Import ListNotations.

Lemma ty_eqb_eq : forall a b, ty_eqb a b = true <-> a = b.
Proof. intros a b. destruct a, b; cbn; split; intros H; try reflexivity; discriminate H. Qed.

Lemma ty_eqb_refl : forall a, ty_eqb a a = true.
Proof. intros a. apply ty_eqb_eq. reflexivity. Qed.

Lemma rty_eqb_eq : forall a b, rty_eqb a b = true <-> a = b.
Proof.
  intros [a x] [b y]. unfold rty_eqb. cbn [fst snd]. rewrite andb_true_iff, ty_eqb_eq, eqb_true_iff.
  split; [intros [-> ->]; reflexivity | intros H; injection H as -> ->; split; reflexivity].
Qed.

Lemma rty_eqb_refl : forall a, rty_eqb a a = true.
Proof. intros a. apply rty_eqb_eq. reflexivity. Qed.

Lemma priority_convertible : forall a b, 0 < priority a b -> convertible a b.
Proof.
  intros a b H. destruct a, b; cbv in H; try (exfalso; lia); unfold convertible, triple_like; cbn; intuition discriminate.
Qed.

Lemma convertible_priority : forall a b, convertible a b -> 0 < priority a b.
Proof.
  intros a b H. unfold convertible, triple_like in H.
  destruct a, b; try (cbv; lia); exfalso; cbn in H;
    repeat match goal with H : _ \/ _ |- _ => destruct H as [H|H] | H : _ /\ _ |- _ => destruct H as [? H] end;
    try contradiction; discriminate.
Qed.

Lemma found_spec : forall r, found r = true <-> fst r <> Nil.
Proof.
  intros [t b]. unfold found. cbn [fst]. destruct t; cbn; split; intros H; try congruence; try reflexivity.
Qed.

Lemma best_cast_ok : forall cur types ret pri,
  best_cast cur types ret pri = ret \/
  (In (best_cast cur types ret pri) types /\ 0 < priority cur (fst (best_cast cur types ret pri))).
Proof.
  intros cur. induction types as [|t r IH]; intros ret pri; cbn [best_cast]; [left; reflexivity|].
  destruct (pri <? priority cur (fst t)) eqn:L.
  - apply Nat.ltb_lt in L. right. destruct (IH t (priority cur (fst t))) as [E|[I P]].
    + rewrite E. split; [left; reflexivity | lia].
    + split; [right; exact I | exact P].
  - destruct (IH ret pri) as [E|[I P]]; [left; exact E | right; split; [right; exact I | exact P]].
Qed.

Lemma find_cast_ok : forall cur types,
  found (find_cast cur types) = true ->
  In (fst (find_cast cur types)) (map fst types) /\ convertible cur (fst (find_cast cur types)).
Proof.
  intros cur types F. unfold find_cast in *.
  destruct (existsb (fun t => ty_eqb (fst t) cur) types) eqn:E.
  - cbn [fst]. apply existsb_exists in E as [t [I E]]. apply ty_eqb_eq in E. subst cur.
    split; [apply in_map; exact I | left; reflexivity].
  - destruct (best_cast_ok cur types (Nil, false) 0) as [B|[I P]].
    + rewrite B in F. discriminate F.
    + split; [apply in_map; exact I | apply priority_convertible; exact P].
Qed.

(** A request for one type that can be had is found. *)
Lemma find_cast_one : forall cur t, t <> Nil -> convertible cur t -> found (find_cast cur [(t, false)]) = true /\ fst (find_cast cur [(t, false)]) = t.
Proof.
  intros cur t N C. unfold find_cast. cbn [existsb fst orb].
  destruct (ty_eqb t cur) eqn:E; cbn [orb].
  - apply ty_eqb_eq in E. subst cur. split; [apply found_spec; exact N | reflexivity].
  - cbn [best_cast fst]. apply convertible_priority in C.
    destruct (0 <? priority cur t) eqn:L; [split; [apply found_spec; exact N | reflexivity]|].
    apply Nat.ltb_ge in L. lia.
Qed.

Lemma find_cast_one_exact : forall cur t,
  found (find_cast cur [(t, false)]) = true -> find_cast cur [(t, false)] = (t, false).
Proof.
  intros cur t F. destruct (find_cast_ok _ _ F) as [[E|[]] _]. cbn in E.
  unfold find_cast in *. cbn [existsb fst orb] in *.
  destruct (ty_eqb t cur) eqn:Q; cbn [orb] in *.
  - cbn in E. congruence.
  - cbn [best_cast fst] in *. destruct (0 <? priority cur t); [reflexivity | discriminate F].
Qed.

Lemma pick_ok : forall ta tb types t, pick ta tb types = Some t ->
  In t types /\ found (find_cast ta [t]) = true /\ found (find_cast tb [t]) = true.
Proof.
  intros ta tb. induction types as [|x r IH]; intros t H; cbn [pick] in H; [discriminate H|].
  destruct (found (find_cast ta [x]) && found (find_cast tb [x])) eqn:F.
  - injection H as <-. apply andb_true_iff in F as [A B]. split; [left; reflexivity | split; assumption].
  - destruct (IH t H) as [I F']. split; [right; exact I | exact F'].
Qed.

(** ** Arguments that were only looked at *)

Lemma valid_args_eq : forall l,
  (fix go (l : list expr) : result (list expr * list (option ty)) :=
               match l with
               | [] => Done ([], [])
               | a :: r =>
                   match valid a with
                   | Done (a', m) =>
                       match go r with
                       | Done (r', ms) => Done (a' :: r', m :: ms)
                       | Refuse => Refuse | Undef => Undef | Deep => Deep
                       end
                   | Refuse => Refuse | Undef => Undef | Deep => Deep
                   end
               end) l = valid_args l.
Proof. induction l as [|a r IH]; [reflexivity | cbn [valid_args]; rewrite IH; reflexivity]. Qed.

Lemma select_kept : forall types mains cands best kept b,
  select types mains cands best = Some (kept, b) -> incl kept cands.
Proof.
  intros types mains. induction cands as [|f r IH]; intros best kept b H; cbn [select] in H.
  - injection H as <- <-. intros x [].
  - destruct (candidate types mains f).
    + intros x I. right. eapply IH; [exact H | exact I].
    + destruct (select types mains r best) as [[k b0]|] eqn:E; [|discriminate H]. injection H as <- <-.
      intros x [X|X]; [left; exact X | right; eapply IH; [exact E | exact X]].
    + match type of H with context [select types mains r ?u] => destruct (select types mains r u) as [[k b0]|] eqn:E; [|discriminate H] end.
      injection H as <- <-.
      intros x [X|X]; [left; exact X | right; eapply IH; [exact E | exact X]].
    + discriminate H.
Qed.

(** The chosen candidate fits. *)
Lemma select_best : forall types mains cands best kept f w,
  select types mains cands best = Some (kept, Some (f, w)) ->
  best = Some (f, w) \/ (In f cands /\ candidate types mains f = Fits w).
Proof.
  intros types mains. induction cands as [|g r IH]; intros best kept f w H; cbn [select] in H.
  - injection H as _ ->. left. reflexivity.
  - destruct (candidate types mains g) eqn:C.
    + destruct (IH _ _ _ _ H) as [B|[I B]]; [left; exact B | right; split; [right; exact I | exact B]].
    + destruct (select types mains r best) as [[k b0]|] eqn:E; [|discriminate H]. injection H as <- ->.
      destruct (IH _ _ _ _ E) as [B|[I B]]; [left; exact B | right; split; [right; exact I | exact B]].
    + match type of H with context [select types mains r ?u] => destruct (select types mains r u) as [[k b0]|] eqn:E; [|discriminate H] end.
      injection H as <- ->.
      destruct (IH _ _ _ _ E) as [B|[I B]]; [|right; split; [right; exact I | exact B]].
      destruct best as [[h wh]|].
      * destruct (wh <? w0); [|left; exact B]. injection B as -> ->. right. split; [left; reflexivity | exact C].
      * injection B as -> ->. right. split; [left; reflexivity | exact C].
    + discriminate H.
Qed.

Lemma fit_args_ok : forall more ps mains w ok w',
  fit_args more ps mains w ok = Fits w' ->
  length ps <= length mains \/ length mains <= length ps.
Proof. intros. lia. Qed.

Lemma fit_args_count : forall more ps mains w ok w',
  fit_args more ps mains w ok = Fits w' -> length mains <= length ps \/ more = true.
Proof.
  intros more. induction ps as [|p ps IH]; intros mains w ok w' H; destruct mains as [|m mains]; cbn [fit_args] in H;
    try (left; cbn; lia).
  - destruct more; [right; reflexivity | discriminate H].
  - destruct (arg_weight m p); destruct (IH _ _ _ _ H) as [L|L]; try (right; exact L); left; cbn; lia.
Qed.

Lemma candidate_fits : forall types mains f w, candidate types mains f = Fits w ->
  found (find_cast (ret f) types) = true /\
  length (params f) <= length mains /\
  (length mains = length (params f) \/ variadic f = true).
Proof.
  intros types mains f w H. unfold candidate in H.
  destruct ((0 <? length (params f)) &&
            (negb (variadic f) && negb (length (params f) =? length mains) || variadic f && (length mains <? length (params f)))) eqn:D;
    [discriminate H|].
  destruct (found (find_cast (ret f) types)) eqn:F; [|discriminate H].
  split; [reflexivity|].
  pose proof (fit_args_count _ _ _ _ _ _ H) as C.
  destruct (variadic f) eqn:V; cbn [negb andb orb] in D.
  - rewrite andb_false_iff in D. split; [|right; reflexivity].
    destruct D as [D|D]; [apply Nat.ltb_ge in D; lia | apply Nat.ltb_ge in D; lia].
  - rewrite orb_false_r, andb_false_iff in D. destruct C as [C|C]; [|discriminate C].
    destruct D as [D|D].
    + apply Nat.ltb_ge in D. split; [lia | left; lia].
    + apply negb_false_iff, Nat.eqb_eq in D. split; [lia | left; lia].
Qed.

Lemma valid_args_length : forall l l' ms, valid_args l = Done (l', ms) -> length l' = length l /\ length ms = length l.
Proof.
  induction l as [|a r IH]; intros l' ms H; cbn [valid_args] in H.
  - injection H as <- <-. split; reflexivity.
  - destruct (valid a) as [[a' m]| | |]; try discriminate H.
    destruct (valid_args r) as [[r' ms']| | |]; try discriminate H. injection H as <- <-.
    destruct (IH _ _ eq_refl) as [A B]. cbn. lia.
Qed.

Section ExprInd.
  Variable P : expr -> Prop.
  Hypothesis H : forall e, (forall e', depth e' < depth e -> P e') -> P e.
  Lemma expr_depth_ind : forall e, P e.
  Proof.
    intros e. assert (G : forall n e, depth e < n -> P e).
    { induction n as [|n IH]; intros x L; [lia|]. apply H. intros e' L'. apply IH. lia. }
    exact (G (S (depth e)) e (Nat.lt_succ_diag_r _)).
  Qed.
End ExprInd.

Lemma depth_in : forall l a, In a l -> depth a <= fold_right (fun a d => max (depth a) d) 0 l.
Proof.
  induction l as [|x r IH]; intros a H; [destruct H|]. cbn [fold_right].
  destruct H as [E|I]; [subst x; lia | specialize (IH _ I); lia].
Qed.

Lemma valid_done_other : forall e e' m, valid e = Done (e', m) ->
  (exists fs l, e = Call fs l) \/ e' = e.
Proof.
  intros e e' m V. destruct e; try (left; do 2 eexists; reflexivity); right; cbn [valid] in V;
    match type of V with match ?x with _ => _ end = _ => destruct x; [|discriminate V] end;
    injection V as <- _; reflexivity.
Qed.

Lemma valid_call : forall fs l e' m, valid (Call fs l) = Done (e', m) ->
  exists kept l' ms best, valid_args l = Done (l', ms) /\ select all_types ms fs None = Some (kept, best) /\ e' = Call kept l'.
Proof.
  intros fs l e' m V. cbn [valid] in V. rewrite valid_args_eq in V.
  destruct fs as [|f fs]; [discriminate V|].
  destruct (valid_args l) as [[l' ms]| | |]; try discriminate V.
  destruct (select all_types ms (f :: fs) None) as [[kept best]|] eqn:E; [|discriminate V].
  injection V as <- _. exists kept, l', ms, best. split; [reflexivity | split; [exact E | reflexivity]].
Qed.

Lemma valid_args_forall : forall (P : expr -> expr -> Prop) l l' ms,
  (forall a a' m, In a l -> valid a = Done (a', m) -> P a a') ->
  valid_args l = Done (l', ms) -> Forall2 P l l'.
Proof.
  intros P. induction l as [|a r IH]; intros l' ms HP V; cbn [valid_args] in V.
  - injection V as <- <-. constructor.
  - destruct (valid a) as [[a' m]| | |] eqn:E; try discriminate V.
    destruct (valid_args r) as [[r' ms']| | |] eqn:E'; try discriminate V. injection V as <- <-.
    constructor; [eapply HP; [left; reflexivity | exact E]|].
    eapply IH; [|reflexivity]. intros x x' mx I. apply HP. right. exact I.
Qed.

Lemma valid_depth : forall e e' m, valid e = Done (e', m) -> depth e' = depth e.
Proof.
  intros e. induction e as [e IH] using expr_depth_ind. intros e' m V.
  destruct (valid_done_other _ _ _ V) as [[fs [l ->]]| ->]; [|reflexivity].
  destruct (valid_call _ _ _ _ V) as (kept & l' & ms & best & VL & _ & ->). cbn [depth]. f_equal.
  assert (F : Forall2 (fun a a' => depth a' = depth a) l l').
  { eapply valid_args_forall; [|exact VL]. intros a a' x I E. eapply IH; [|exact E].
    cbn [depth]. pose proof (depth_in _ _ I). lia. }
  clear VL IH V. induction F as [|a a' r r' E F IHF]; [reflexivity|]. cbn [fold_right]. rewrite E, IHF. reflexivity.
Qed.

Lemma plain_list : forall s l, fold_right (fun a P => plain s a /\ P) True l <-> Forall (plain s) l.
Proof.
  intros s. induction l as [|a r IH]; cbn [fold_right]; [split; [constructor | trivial]|].
  rewrite Forall_cons_iff, IH. reflexivity.
Qed.

Lemma valid_plain : forall s e e' m, valid e = Done (e', m) -> plain s e -> plain s e'.
Proof.
  intros s e. induction e as [e IH] using expr_depth_ind. intros e' m V PL.
  destruct (valid_done_other _ _ _ V) as [[fs [l ->]]| ->]; [|exact PL].
  destruct (valid_call _ _ _ _ V) as (kept & l' & ms & best & VL & _ & ->).
  cbn [plain] in *. rewrite plain_list in *.
  assert (F : Forall2 (fun a a' => plain s a -> plain s a') l l').
  { eapply valid_args_forall; [|exact VL]. intros a a' x I E. eapply IH; [|exact E].
    cbn [depth]. pose proof (depth_in _ _ I). lia. }
  clear VL IH V. induction F as [|a a' r r' E F IHF]; [constructor|].
  rewrite Forall_cons_iff in *. destruct PL. split; auto.
Qed.

Lemma valid_direct : forall e e' m, valid e = Done (e', m) -> direct e' = direct e.
Proof.
  intros e e' m V. destruct (valid_done_other _ _ _ V) as [[fs [l ->]]| ->]; [|reflexivity].
  destruct (valid_call _ _ _ _ V) as (kept & l' & ms & best & VL & _ & ->). reflexivity.
Qed.

(** ** The type returned *)

Lemma finish_one : forall t from u e e' r, finish t from [(u, false)] e = Done (e', r) -> r = (u, false).
Proof.
  intros t from u e e' r H. unfold finish in H. cbn [existsb orb] in H. rewrite orb_false_r in H.
  destruct (rty_eqb (u, false) (t, false)) eqn:E.
  - apply rty_eqb_eq in E. injection E as ->. injection H as _ <-. reflexivity.
  - destruct (found (find_cast from [(u, false)])) eqn:F; [|discriminate H]. injection H as _ <-.
    apply find_cast_one_exact. exact F.
Qed.

Lemma check_both_ok : forall chk a b types a' b' t,
  check_both chk a b types = Done (a', b', t) ->
  In t types /\ (exists ra, chk a [t] = Done (a', ra)) /\ (exists rb, chk b [t] = Done (b', rb)).
Proof.
  intros chk a b types a' b' t H. unfold check_both in H.
  destruct (res_type a) as [ta|]; [|discriminate H]. destruct (res_type b) as [tb|]; [|discriminate H].
  destruct (pick ta tb types) as [u|] eqn:P; [|discriminate H].
  destruct (chk a [u]) as [[x rx]| | |] eqn:A; try discriminate H.
  destruct (chk b [u]) as [[y ry]| | |] eqn:B; try discriminate H.
  injection H as <- <- <-. apply pick_ok in P as [I _].
  split; [exact I|]. split; eexists; eassumption.
Qed.

(** An expression that is not the direct result of a call returns the type that
    was requested, when only one was and nothing failed silently. *)
Lemma check_one : forall n s e t e' r, plain s e -> direct e = false ->
  check n e [(t, false)] = Done (e', r) -> r = (t, false).
Proof.
  induction n as [|n IH]; intros s e t e' r PL D H; [discriminate H|].
  destruct e as [c0 c|m|v x|v ar x i|v rf x a|v rf x a i|o a b|o a b|o a b|a b|o a|to a|l|l|c a b|fs l];
    cbn [check] in H; cbn [plain] in PL; cbn [direct] in D.
  - eapply finish_one; exact H.
  - eapply finish_one; exact H.
  - eapply finish_one; exact H.
  - destruct (check n i [(Float, false)]) as [[i' ri]| | |]; try discriminate H.
    destruct (negb (found ri)); [discriminate H|]. destruct ar; [|discriminate H]. eapply finish_one; exact H.
  - destruct rf; [discriminate H|]. destruct PL as [PA DA].
    destruct (check n a [(v, false)]) as [[a' ra]| | |] eqn:A; try discriminate H.
    rewrite (IH _ _ _ _ _ PA DA A), rty_eqb_refl in H. eapply finish_one; exact H.
  - destruct (check n i [(Float, false)]) as [[i' ri]| | |]; try discriminate H.
    destruct (negb (found ri)); [discriminate H|].
    destruct rf; [discriminate H|]. destruct PL as [PA [DA _]].
    destruct (check n a [(v, false)]) as [[a' ra]| | |] eqn:A; try discriminate H.
    rewrite (IH _ _ _ _ _ PA DA A), rty_eqb_refl in H. eapply finish_one; exact H.
  - destruct (check_both (check n) a b [(t, false)]) as [[[a' b'] u]| | |] eqn:B; try discriminate H.
    injection H as _ <-. apply check_both_ok in B as [[I|[]] _]. symmetry. exact I.
  - destruct (check_both (check n) a b [(t, false)]) as [[[a' b'] u]| | |] eqn:B; try discriminate H.
    injection H as _ <-. apply check_both_ok in B as [[I|[]] _]. symmetry. exact I.
  - destruct (check_both (check n) a b all_types) as [[[a' b'] u]| | |] eqn:B; try discriminate H.
    destruct (found (find_cast Float [(t, false)])) eqn:F; [|discriminate H].
    rewrite (find_cast_one_exact _ _ F) in H.
    destruct (rty_eqb (t, false) (Float, false)) eqn:E; injection H as _ <-; [|reflexivity].
    apply rty_eqb_eq in E. symmetry. exact E.
  - destruct (found (find_cast Float [(t, false)])) eqn:F; [|discriminate H].
    rewrite (find_cast_one_exact _ _ F) in H.
    destruct (check_both (check n) a b [(Point, false); (Vector, false); (Normal, false)]) as [[[a' b'] u]| | |] eqn:B; try discriminate H.
    destruct (rty_eqb (t, false) (Float, false)) eqn:E; injection H as _ <-; reflexivity.
  - destruct (check n a [(t, false)]) as [[a' ra]| | |] eqn:A; try discriminate H. injection H as _ <-.
    exact (IH _ _ _ _ _ PL D A).
  - destruct (check n a [to]) as [[a' ra]| | |] eqn:A; try discriminate H.
    cbn [existsb orb] in H. rewrite orb_false_r in H.
    destruct (rty_eqb (t, false) to) eqn:E.
    + apply rty_eqb_eq in E. subst to. injection H as _ <-. reflexivity.
    + destruct (found (find_cast (fst to) [(t, false)])) eqn:F; [|discriminate H]. injection H as _ <-.
      apply find_cast_one_exact. exact F.
  - destruct (check_floats (check n) l) as [l'| | |]; try discriminate H. eapply finish_one; exact H.
  - destruct (check_floats (check n) l) as [l'| | |]; try discriminate H. eapply finish_one; exact H.
  - destruct (check n c all_types) as [[c' rc]| | |]; try discriminate H.
    destruct (check_both (check n) a b [(t, false)]) as [[[a' b'] u]| | |] eqn:B; try discriminate H.
    injection H as _ <-. apply check_both_ok in B as [[I|[]] _]. symmetry. exact I.
  - discriminate D.
Qed.

(** ** Soundness *)

Section Sound.
Variable strict : bool.

Lemma finish_sound : forall t from types e e' r,
  has_type strict e t -> (forall u, convertible from u -> convertible t u) ->
  finish t from types e = Done (e', r) ->
  exists u, In u (map fst types) /\ has_type strict e' u.
Proof.
  intros t from types e e' r HT CV H. unfold finish in H.
  destruct (existsb (fun x => rty_eqb x (t, false)) types) eqn:E.
  - injection H as <- _. apply existsb_exists in E as [x [I E]]. apply rty_eqb_eq in E. subst x.
    exists t. split; [apply (in_map fst _ _ I) | exact HT].
  - destruct (found (find_cast from types)) eqn:F; [|discriminate H]. injection H as <- _.
    destruct (find_cast_ok _ _ F) as [I C].
    exists (fst (find_cast from types)). split; [exact I|]. eapply HT_cast; [exact HT | apply CV; exact C].
Qed.

Lemma matrix_sixteen : forall u, convertible Matrix u -> convertible HexTuple u.
Proof.
  intros u H. unfold convertible, triple_like in *. cbn [In] in *.
  destruct H as [<-|[[H _]|[[H _]|[[H _]|[[H _]|[H _]]]]]]; try discriminate H.
  - do 5 right. split; reflexivity.
  - repeat (destruct H as [H|H]; [discriminate H|]). destruct H.
Qed.

Lemma check_floats_sound : forall chk l l',
  (forall a a' r, In a l -> chk a [(Float, false)] = Done (a', r) -> has_type strict a' Float) ->
  check_floats chk l = Done l' -> Forall (fun a => has_type strict a Float) l'.
Proof.
  intros chk. induction l as [|a r IH]; intros l' HC H; cbn [check_floats] in H.
  - injection H as <-. constructor.
  - destruct (chk a [(Float, false)]) as [[a' ra]| | |] eqn:A; try discriminate H.
    destruct (check_floats chk r) as [r'| | |] eqn:R; try discriminate H. injection H as <-.
    constructor; [eapply HC; [left; reflexivity | exact A]|].
    eapply IH; [|reflexivity]. intros x x' rx I. apply HC. right. exact I.
Qed.

Lemma check_args_sound : forall chk ps args args',
  (forall a a' p r, In a args -> chk a [p] = Done (a', r) -> has_type strict a' (fst p)) ->
  length ps <= length args ->
  check_args chk ps args = Done args' ->
  exists typed more, args' = typed ++ more /\ Forall2 (fun a p => has_type strict a (fst p)) typed ps /\
    length more = length args - length ps.
Proof.
  intros chk. induction ps as [|p ps IH]; intros args args' HC L H.
  - destruct args as [|a r]; cbn [check_args] in H; injection H as <-; exists []; eexists; (split; [reflexivity|]);
      (split; [constructor | cbn [length]; lia]).
  - destruct args as [|a r]; [cbn in L; lia|]. cbn [check_args] in H.
    destruct (chk a [p]) as [[a' ra]| | |] eqn:A; try discriminate H.
    destruct (check_args chk ps r) as [r'| | |] eqn:R; try discriminate H. injection H as <-.
    destruct (IH r r') as (typed & more & -> & F & LM); [intros x x' q rx I; apply HC; right; exact I | cbn in L; lia | exact R |].
    exists (a' :: typed), more. split; [reflexivity|]. split; [|cbn [length] in *; lia].
    constructor; [|exact F]. eapply HC; [left; reflexivity | exact A].
Qed.

Lemma check_sound : forall n e types e' r, plain strict e -> check n e types = Done (e', r) ->
  exists t, In t (map fst types) /\ has_type strict e' t.
Proof.
  induction n as [|n IH]; intros e types e' r PL H; [discriminate H|].
  assert (ONE : forall a p a' ra, plain strict a -> check n a [p] = Done (a', ra) -> has_type strict a' (fst p)).
  { intros a p a' ra PA A. destruct (IH _ _ _ _ PA A) as [t [[I|[]] T]]. cbn in I. subst t. exact T. }
  assert (BOTH : forall a b ts a' b' u, plain strict a -> plain strict b ->
    check_both (check n) a b ts = Done (a', b', u) -> In u ts /\ has_type strict a' (fst u) /\ has_type strict b' (fst u)).
  { intros a b ts a' b' u PA PB B. apply check_both_ok in B as (I & [ra A] & [rb B]).
    split; [exact I|]. split; [exact (ONE _ _ _ _ PA A) | exact (ONE _ _ _ _ PB B)]. }
  destruct e as [c0 c|m|v x|v ar x i|v rf x a|v rf x a i|o a b|o a b|o a b|a b|o a|to a|l|l|c a b|fs l];
    cbn [check] in H; cbn [plain] in PL.
  - eapply finish_sound; [|intros u U; exact U | exact H]. constructor.
  - eapply finish_sound; [|intros u U; exact U | exact H]. constructor.
  - eapply finish_sound; [|intros u U; exact U | exact H]. constructor.
  - destruct (check n i [(Float, false)]) as [[i' ri]| | |] eqn:A; try discriminate H.
    destruct (negb (found ri)); [discriminate H|]. destruct ar; [|discriminate H].
    eapply finish_sound; [|intros u U; exact U | exact H]. constructor. exact (ONE _ _ _ _ PL A).
  - destruct rf; [discriminate H|]. destruct PL as [PA DA].
    destruct (check n a [(v, false)]) as [[a' ra]| | |] eqn:A; try discriminate H.
    rewrite (check_one _ _ _ _ _ _ PA DA A), rty_eqb_refl in H.
    eapply finish_sound; [|intros u U; exact U | exact H]. constructor. exact (ONE _ _ _ _ PA A).
  - destruct PL as [PA [DA PI]].
    destruct (check n i [(Float, false)]) as [[i' ri]| | |] eqn:AI; try discriminate H.
    destruct (negb (found ri)); [discriminate H|].
    destruct rf; [discriminate H|].
    destruct (check n a [(v, false)]) as [[a' ra]| | |] eqn:A; try discriminate H.
    rewrite (check_one _ _ _ _ _ _ PA DA A), rty_eqb_refl in H.
    eapply finish_sound; [|intros u U; exact U | exact H].
    constructor; [exact (ONE _ _ _ _ PA A) | exact (ONE _ _ _ _ PI AI)].
  - destruct PL as [PA PB].
    destruct (check_both (check n) a b types) as [[[a' b'] u]| | |] eqn:B; try discriminate H. injection H as <- <-.
    destruct (BOTH _ _ _ _ _ _ PA PB B) as (I & TA & TB).
    exists (fst u). split; [apply in_map; exact I | constructor; assumption].
  - destruct PL as [ST [PA PB]].
    destruct (check_both (check n) a b types) as [[[a' b'] u]| | |] eqn:B; try discriminate H. injection H as <- <-.
    destruct (BOTH _ _ _ _ _ _ PA PB B) as (I & TA & TB).
    exists (fst u). split; [apply in_map; exact I|].
    pose proof (HT_logical strict o a' b' (fst u) TA TB) as G. rewrite ST in G at 2. exact G.
  - destruct PL as [PA PB].
    destruct (check_both (check n) a b all_types) as [[[a' b'] u]| | |] eqn:B; try discriminate H.
    destruct (BOTH _ _ _ _ _ _ PA PB B) as (I & TA & TB).
    assert (G : has_type strict (Relational o a' b') Float) by (econstructor; eassumption).
    destruct (found (find_cast Float types)) eqn:F; [|discriminate H]. destruct (find_cast_ok _ _ F) as [IN C].
    destruct (rty_eqb (find_cast Float types) (Float, false)) eqn:E; injection H as <- _.
    + apply rty_eqb_eq in E. exists Float. split; [rewrite E in IN; exact IN | exact G].
    + eexists. split; [exact IN | econstructor; [exact G | exact C]].
  - destruct PL as [PA PB].
    destruct (found (find_cast Float types)) eqn:F; [|discriminate H]. destruct (find_cast_ok _ _ F) as [IN C].
    destruct (check_both (check n) a b [(Point, false); (Vector, false); (Normal, false)]) as [[[a' b'] u]| | |] eqn:B; try discriminate H.
    destruct (BOTH _ _ _ _ _ _ PA PB B) as (I & TA & TB).
    assert (G : has_type strict (Dot a' b') Float).
    { econstructor; [|exact TA | exact TB]. apply (in_map fst) in I. exact I. }
    destruct (rty_eqb (find_cast Float types) (Float, false)) eqn:E; injection H as <- _.
    + apply rty_eqb_eq in E. exists Float. split; [rewrite E in IN; exact IN | exact G].
    + eexists. split; [exact IN | econstructor; [exact G | exact C]].
  - destruct (check n a types) as [[a' ra]| | |] eqn:A; try discriminate H. injection H as <- _.
    destruct (IH _ _ _ _ PL A) as [t [I T]]. exists t. split; [exact I | constructor; exact T].
  - destruct (check n a [to]) as [[a' ra]| | |] eqn:A; try discriminate H.
    assert (G : has_type strict (Cast to a') (fst to)).
    { eapply HT_cast; [exact (ONE _ _ _ _ PL A) | left; reflexivity]. }
    destruct (existsb (fun x => rty_eqb x to) types) eqn:E.
    + injection H as <- _. apply existsb_exists in E as [y [I E]]. apply rty_eqb_eq in E. subst y.
      exists (fst to). split; [apply in_map; exact I | exact G].
    + destruct (found (find_cast (fst to) types)) eqn:F; [|discriminate H]. injection H as <- _.
      destruct (find_cast_ok _ _ F) as [IN C]. eexists. split; [exact IN | econstructor; [exact G | exact C]].
  - rewrite plain_list in PL. destruct (check_floats (check n) l) as [l'| | |] eqn:A; try discriminate H.
    eapply finish_sound; [|intros u U; exact U | exact H]. constructor. eapply check_floats_sound; [|exact A].
    intros a a' ra I. apply (ONE _ (Float, false)). rewrite Forall_forall in PL. exact (PL _ I).
  - rewrite plain_list in PL. destruct (check_floats (check n) l) as [l'| | |] eqn:A; try discriminate H.
    eapply finish_sound; [|exact matrix_sixteen | exact H]. constructor. eapply check_floats_sound; [|exact A].
    intros a a' ra I. apply (ONE _ (Float, false)). rewrite Forall_forall in PL. exact (PL _ I).
  - destruct PL as [PC [PA PB]].
    destruct (check n c all_types) as [[c' rc]| | |] eqn:C; try discriminate H.
    destruct (check_both (check n) a b types) as [[[a' b'] u]| | |] eqn:B; try discriminate H. injection H as <- <-.
    destruct (BOTH _ _ _ _ _ _ PA PB B) as (I & TA & TB).
    destruct (IH _ _ _ _ PC C) as [tc [_ TC]].
    exists (fst u). split; [apply in_map; exact I | econstructor; eassumption].
  - destruct fs as [|f0 fs]; [discriminate H|].
    destruct (valid_args l) as [[l1 ms]| | |] eqn:V; try discriminate H.
    destruct (select types ms (f0 :: fs) None) as [[kept [[f w]|]]|] eqn:SL; try discriminate H.
    destruct (check_args (check n) (params f) l1) as [l2| | |] eqn:A; try discriminate H. injection H as <- _.
    destruct (select_best _ _ _ _ _ _ _ SL) as [B|[IN FT]]; [discriminate B|].
    destruct (candidate_fits _ _ _ _ FT) as (FD & LP & CNT).
    destruct (valid_args_length _ _ _ V) as [LL LM].
    rewrite plain_list in PL.
    assert (PL1 : Forall (plain strict) l1).
    { assert (F2 : Forall2 (fun a a' => plain strict a -> plain strict a') l l1).
      { eapply valid_args_forall; [|exact V]. intros a a' m _ E. exact (valid_plain _ _ _ _ E). }
      clear -F2 PL. induction F2 as [|a a' r r' E F IHF]; [constructor|].
      rewrite Forall_cons_iff in *. destruct PL. split; auto. }
    destruct (check_args_sound (check n) (params f) l1 l2) as (typed & more & -> & F & LMO).
    + intros a a' p ra I. apply ONE. rewrite Forall_forall in PL1. exact (PL1 _ I).
    + lia.
    + exact A.
    + destruct (find_cast_ok _ _ FD) as [IC C].
      eexists. split; [exact IC|]. eapply HT_cast; [|exact C]. constructor; [exact F|].
      destruct CNT as [CNT|CNT]; [left | right; exact CNT].
      apply length_zero_iff_nil. lia.
Qed.

(** A statement that assigns: the value has the type of the variable, whatever
    is done with the value of the assignment. *)
Lemma assign_sound : forall n t rf x a types e' r, plain strict a ->
  check n (Assign t rf x a) types = Done (e', r) ->
  exists u, has_type strict e' u /\ (direct a = false -> In u (map fst types)).
Proof.
  intros n t rf x a types e' r PA H. destruct (direct a) eqn:D.
  - destruct n as [|n]; [discriminate H|]. cbn [check] in H. destruct rf; [discriminate H|].
    destruct (check n a [(t, false)]) as [[a' ra]| | |] eqn:A; try discriminate H.
    destruct (check_sound _ _ _ _ _ PA A) as [u [[I|[]] T]]. cbn in I. subst u.
    assert (G : has_type strict (Assign t false x a') t) by (constructor; exact T).
    destruct (rty_eqb ra (t, false)).
    + destruct (finish_sound _ _ _ _ _ _ G (fun u U => U) H) as [u [_ T']]. exists u. split; [exact T' | discriminate].
    + injection H as <- _. exists t. split; [exact G | discriminate].
  - destruct (check_sound n (Assign t rf x a) types e' r) as [u [I T]]; [cbn; split; assumption | exact H |].
    exists u. split; [exact T | intros _; exact I].
Qed.
End Sound.

(** ** The checker ends *)

Lemma finish_deep : forall t from types e, finish t from types e <> Deep.
Proof.
  intros. unfold finish. destruct (existsb _ types); [discriminate|]. destruct (found _); discriminate.
Qed.

Lemma valid_args_deep_of : forall l, (forall a, In a l -> valid a <> Deep) -> valid_args l <> Deep.
Proof.
  induction l as [|a r IH]; intros H; cbn [valid_args]; [discriminate|].
  assert (HA : valid a <> Deep) by (apply H; left; reflexivity).
  destruct (valid a) as [[a' m]| | |]; try discriminate; [|congruence].
  assert (HR : valid_args r <> Deep) by (apply IH; intros x I; apply H; right; exact I).
  destruct (valid_args r) as [[r' ms]| | |]; try discriminate. congruence.
Qed.

Lemma valid_deep : forall e, valid e <> Deep.
Proof.
  intros e. induction e as [e IH] using expr_depth_ind.
  destruct e as [c0 c|m|v x|v ar x i|v rf x a|v rf x a i|o a b|o a b|o a b|a b|o a|to a|l|l|c a b|fs l];
    try (cbn [valid]; match goal with |- context [res_type ?u] => destruct (res_type u); discriminate end).
  cbn [valid]. rewrite valid_args_eq. destruct fs as [|f fs]; [discriminate|].
  assert (H : valid_args l <> Deep).
  { apply valid_args_deep_of. intros a I. apply IH. cbn [depth]. pose proof (depth_in _ _ I). lia. }
  destruct (valid_args l) as [[l' ms]| | |]; try discriminate; [|congruence].
  destruct (select all_types ms (f :: fs) None) as [[kept best]|]; discriminate.
Qed.

Lemma check_both_deep : forall chk a b types,
  (forall t, chk a t <> Deep) -> (forall t, chk b t <> Deep) -> check_both chk a b types <> Deep.
Proof.
  intros chk a b types HA HB. unfold check_both.
  destruct (res_type a); [|discriminate]. destruct (res_type b); [|discriminate].
  destruct (pick t t0 types) as [u|]; [|discriminate].
  specialize (HA [u]). specialize (HB [u]).
  destruct (chk a [u]) as [[a' ra]| | |]; try discriminate; [|congruence].
  destruct (chk b [u]) as [[b' rb]| | |]; try discriminate. congruence.
Qed.

Lemma check_floats_deep : forall chk l, (forall a t, In a l -> chk a t <> Deep) -> check_floats chk l <> Deep.
Proof.
  intros chk. induction l as [|a r IH]; intros H; cbn [check_floats]; [discriminate|].
  pose proof (H a [(Float, false)] (or_introl eq_refl)) as HA.
  destruct (chk a [(Float, false)]) as [[a' ra]| | |]; try discriminate; [|congruence].
  assert (HR : check_floats chk r <> Deep) by (apply IH; intros x t I; apply H; right; exact I).
  destruct (check_floats chk r); try discriminate. congruence.
Qed.

Lemma check_args_deep : forall chk ps l, (forall a t, In a l -> chk a t <> Deep) -> check_args chk ps l <> Deep.
Proof.
  intros chk. induction ps as [|p ps IH]; intros l H; destruct l as [|a r]; cbn [check_args]; try discriminate.
  pose proof (H a [p] (or_introl eq_refl)) as HA.
  destruct (chk a [p]) as [[a' ra]| | |]; try discriminate; [|congruence].
  assert (HR : check_args chk ps r <> Deep) by (apply IH; intros x t I; apply H; right; exact I).
  destruct (check_args chk ps r); try discriminate. congruence.
Qed.

Lemma check_ends : forall n e types, depth e < n -> check n e types <> Deep.
Proof.
  induction n as [|n IH]; intros e types L; [lia|].
  destruct e as [c0 c|m|v x|v ar x i|v rf x a|v rf x a i|o a b|o a b|o a b|a b|o a|to a|l|l|c a b|fs l];
    cbn [check]; cbn [depth] in L; try apply finish_deep.
  - pose proof (IH i [(Float, false)] ltac:(lia)) as HI.
    destruct (check n i [(Float, false)]) as [[i' ri]| | |]; try discriminate; [|congruence].
    destruct (negb (found ri)); [discriminate|]. destruct ar; [apply finish_deep | discriminate].
  - destruct rf; [discriminate|]. pose proof (IH a [(v, false)] ltac:(lia)) as HA.
    destruct (check n a [(v, false)]) as [[a' ra]| | |]; try discriminate; [|congruence].
    destruct (rty_eqb ra (v, false)); [apply finish_deep | discriminate].
  - pose proof (IH i [(Float, false)] ltac:(lia)) as HI.
    destruct (check n i [(Float, false)]) as [[i' ri]| | |]; try discriminate; [|congruence].
    destruct (negb (found ri)); [discriminate|].
    destruct rf; [discriminate|]. pose proof (IH a [(v, false)] ltac:(lia)) as HA.
    destruct (check n a [(v, false)]) as [[a' ra]| | |]; try discriminate; [|congruence].
    destruct (rty_eqb ra (v, false)); [apply finish_deep | discriminate].
  - assert (B : check_both (check n) a b types <> Deep) by (apply check_both_deep; intros t; apply IH; lia).
    destruct (check_both (check n) a b types) as [[[a' b'] u]| | |]; try discriminate. congruence.
  - assert (B : check_both (check n) a b types <> Deep) by (apply check_both_deep; intros t; apply IH; lia).
    destruct (check_both (check n) a b types) as [[[a' b'] u]| | |]; try discriminate. congruence.
  - assert (B : check_both (check n) a b all_types <> Deep) by (apply check_both_deep; intros t; apply IH; lia).
    destruct (check_both (check n) a b all_types) as [[[a' b'] u]| | |]; try discriminate; [|congruence].
    destruct (found (find_cast Float types)); [|discriminate].
    destruct (rty_eqb (find_cast Float types) (Float, false)); discriminate.
  - destruct (found (find_cast Float types)); [|discriminate].
    assert (B : check_both (check n) a b [(Point, false); (Vector, false); (Normal, false)] <> Deep)
      by (apply check_both_deep; intros t; apply IH; lia).
    destruct (check_both (check n) a b [(Point, false); (Vector, false); (Normal, false)]) as [[[a' b'] u]| | |]; try discriminate; [|congruence].
    destruct (rty_eqb (find_cast Float types) (Float, false)); discriminate.
  - pose proof (IH a types ltac:(lia)) as HA.
    destruct (check n a types) as [[a' ra]| | |]; try discriminate. congruence.
  - pose proof (IH a [to] ltac:(lia)) as HA.
    destruct (check n a [to]) as [[a' ra]| | |]; try discriminate; [|congruence].
    destruct (existsb _ types); [discriminate|]. destruct (found (find_cast (fst to) types)); discriminate.
  - assert (F : check_floats (check n) l <> Deep).
    { apply check_floats_deep. intros a t I. apply IH. pose proof (depth_in _ _ I). lia. }
    destruct (check_floats (check n) l); try discriminate; [apply finish_deep | congruence].
  - assert (F : check_floats (check n) l <> Deep).
    { apply check_floats_deep. intros a t I. apply IH. pose proof (depth_in _ _ I). lia. }
    destruct (check_floats (check n) l); try discriminate; [apply finish_deep | congruence].
  - pose proof (IH c all_types ltac:(lia)) as HC.
    destruct (check n c all_types) as [[c' rc]| | |]; try discriminate; [|congruence].
    assert (B : check_both (check n) a b types <> Deep) by (apply check_both_deep; intros t; apply IH; lia).
    destruct (check_both (check n) a b types) as [[[a' b'] u]| | |]; try discriminate. congruence.
  - destruct fs as [|f0 fs]; [discriminate|].
    assert (HV : valid_args l <> Deep) by (apply valid_args_deep_of; intros a _; apply valid_deep).
    destruct (valid_args l) as [[l1 ms]| | |] eqn:V; try discriminate; [|congruence].
    destruct (select types ms (f0 :: fs) None) as [[kept [[f w]|]]|]; try discriminate.
    assert (HA : check_args (check n) (params f) l1 <> Deep).
    { apply check_args_deep. intros a t I. apply IH.
      assert (F : Forall2 (fun a a' => depth a' = depth a) l l1).
      { eapply valid_args_forall; [|exact V]. intros x x' m _ E. exact (valid_depth _ _ _ E). }
      clear -F I L. revert L I. induction F as [|x x' r r' E F IHF]; intros L I; [destruct I|].
      cbn [fold_right] in L. destruct I as [<-|I]; [lia|]. apply IHF; [lia | exact I]. }
    destruct (check_args (check n) (params f) l1); try discriminate. congruence.
Qed.

(** ** Nothing but casts is added *)

Lemma same_refl : forall e, same_but_casts e e.
Proof.
  intros e. induction e as [e IH] using expr_depth_ind.
  assert (L : forall l, fold_right (fun a d => max (depth a) d) 0 l < depth e -> Forall2 same_but_casts l l).
  { induction l as [|a r IHl]; intros D; [constructor|]. cbn [fold_right] in D.
    constructor; [apply IH; lia | apply IHl; lia]. }
  destruct e; cbn [depth] in *; first [apply SC_cast | constructor]; try (apply IH; lia); try (apply L; lia).
  apply incl_refl.
Qed.

Lemma valid_same : forall e e1 m e2, valid e = Done (e1, m) -> same_but_casts e1 e2 -> same_but_casts e e2.
Proof.
  intros e. induction e as [e IH] using expr_depth_ind. intros e1 m e2 V SM.
  destruct (valid_done_other _ _ _ V) as [[fs [l ->]]| ->]; [|exact SM].
  destruct (valid_call _ _ _ _ V) as (kept & l' & ms & best & VL & SL & ->).
  remember (Call kept l') as c eqn:C.
  induction SM; try discriminate C.
  - apply SC_add. apply IHSM; assumption.
  - injection C as -> ->. apply SC_call.
    + intros f I. eapply select_kept; [exact SL | apply H; exact I].
    + assert (F : Forall2 (fun a a1 => forall a2, same_but_casts a1 a2 -> same_but_casts a a2) l l').
      { eapply valid_args_forall; [|exact VL]. intros a a' x I E a2. eapply IH; [|exact E].
        cbn [depth]. pose proof (depth_in _ _ I). lia. }
      clear -F H0. rename H0 into G. revert l'0 G.
      induction F as [|a a1 r r1 E F IHF]; intros l2 G; [inversion G; constructor|].
      inversion G as [|? b2 ? r2 G1 G2]; subst. constructor; [apply E; exact G1 | apply IHF; exact G2].
Qed.

Lemma finish_same : forall t from types e0 e e' r,
  same_but_casts e0 e -> finish t from types e = Done (e', r) -> same_but_casts e0 e'.
Proof.
  intros t from types e0 e e' r SM H. unfold finish in H. destruct (existsb _ types).
  - injection H as <- _. exact SM.
  - destruct (found _); [|discriminate H]. injection H as <- _. apply SC_add. exact SM.
Qed.

Lemma check_floats_same : forall chk l l',
  (forall a a' t r, chk a t = Done (a', r) -> same_but_casts a a') ->
  check_floats chk l = Done l' -> Forall2 same_but_casts l l'.
Proof.
  intros chk. induction l as [|a r IH]; intros l' HC H; cbn [check_floats] in H.
  - injection H as <-. constructor.
  - destruct (chk a [(Float, false)]) as [[a' ra]| | |] eqn:A; try discriminate H.
    destruct (check_floats chk r) as [r'| | |] eqn:R; try discriminate H. injection H as <-.
    constructor; [eapply HC; exact A | apply IH; [exact HC | reflexivity]].
Qed.

Lemma check_args_same : forall chk ps l l',
  (forall a a' t r, chk a t = Done (a', r) -> same_but_casts a a') ->
  check_args chk ps l = Done l' -> Forall2 same_but_casts l l'.
Proof.
  intros chk. induction ps as [|p ps IH]; intros l l' HC H; destruct l as [|a r]; cbn [check_args] in H;
    try (injection H as <-; constructor).
  - apply same_refl.
  - clear. induction r; constructor; [apply same_refl | exact IHr].
  - destruct (chk a [p]) as [[a' ra]| | |] eqn:A; try discriminate H.
    destruct (check_args chk ps r) as [r'| | |] eqn:R; try discriminate H. injection H as <-.
    constructor; [eapply HC; exact A | eapply IH; [exact HC | exact R]].
Qed.

Lemma check_same : forall n e types e' r, check n e types = Done (e', r) -> same_but_casts e e'.
Proof.
  induction n as [|n IH]; intros e types e' r H; [discriminate H|].
  assert (BOTH : forall a b ts a' b' u, check_both (check n) a b ts = Done (a', b', u) ->
    same_but_casts a a' /\ same_but_casts b b').
  { intros a b ts a' b' u B. apply check_both_ok in B as (_ & [ra A] & [rb B]). split; eapply IH; eassumption. }
  destruct e as [c0 c|m|v x|v ar x i|v rf x a|v rf x a i|o a b|o a b|o a b|a b|o a|to a|l|l|c a b|fs l];
    cbn [check] in H.
  - eapply finish_same; [|exact H]. constructor.
  - eapply finish_same; [|exact H]. constructor.
  - eapply finish_same; [|exact H]. constructor.
  - destruct (check n i [(Float, false)]) as [[i' ri]| | |] eqn:A; try discriminate H.
    destruct (negb (found ri)); [discriminate H|]. destruct ar; [|discriminate H].
    eapply finish_same; [|exact H]. constructor. eapply IH; exact A.
  - destruct rf; [discriminate H|].
    destruct (check n a [(v, false)]) as [[a' ra]| | |] eqn:A; try discriminate H.
    assert (G : same_but_casts (Assign v false x a) (Assign v false x a')) by (constructor; eapply IH; exact A).
    destruct (rty_eqb ra (v, false)); [eapply finish_same; [exact G | exact H] | injection H as <- _; exact G].
  - destruct (check n i [(Float, false)]) as [[i' ri]| | |] eqn:AI; try discriminate H.
    destruct (negb (found ri)); [discriminate H|]. destruct rf; [discriminate H|].
    destruct (check n a [(v, false)]) as [[a' ra]| | |] eqn:A; try discriminate H.
    assert (G : same_but_casts (AssignElement v false x a i) (AssignElement v false x a' i'))
      by (constructor; eapply IH; eassumption).
    destruct (rty_eqb ra (v, false)); [eapply finish_same; [exact G | exact H] | injection H as <- _; exact G].
  - destruct (check_both (check n) a b types) as [[[a' b'] u]| | |] eqn:B; try discriminate H. injection H as <- _.
    destruct (BOTH _ _ _ _ _ _ B). constructor; assumption.
  - destruct (check_both (check n) a b types) as [[[a' b'] u]| | |] eqn:B; try discriminate H. injection H as <- _.
    destruct (BOTH _ _ _ _ _ _ B). constructor; assumption.
  - destruct (check_both (check n) a b all_types) as [[[a' b'] u]| | |] eqn:B; try discriminate H.
    destruct (BOTH _ _ _ _ _ _ B). destruct (found (find_cast Float types)); [|discriminate H].
    destruct (rty_eqb (find_cast Float types) (Float, false)); injection H as <- _; [|apply SC_add]; constructor; assumption.
  - destruct (found (find_cast Float types)); [|discriminate H].
    destruct (check_both (check n) a b [(Point, false); (Vector, false); (Normal, false)]) as [[[a' b'] u]| | |] eqn:B; try discriminate H.
    destruct (BOTH _ _ _ _ _ _ B).
    destruct (rty_eqb (find_cast Float types) (Float, false)); injection H as <- _; [|apply SC_add]; constructor; assumption.
  - destruct (check n a types) as [[a' ra]| | |] eqn:A; try discriminate H. injection H as <- _.
    constructor. eapply IH; exact A.
  - destruct (check n a [to]) as [[a' ra]| | |] eqn:A; try discriminate H.
    assert (G : same_but_casts (Cast to a) (Cast to a')) by (apply SC_cast; eapply IH; exact A).
    destruct (existsb _ types); [injection H as <- _; exact G|].
    destruct (found (find_cast (fst to) types)); [|discriminate H]. injection H as <- _. apply SC_add. exact G.
  - destruct (check_floats (check n) l) as [l'| | |] eqn:A; try discriminate H.
    eapply finish_same; [|exact H]. constructor. eapply check_floats_same; [|exact A]. intros; eapply IH; eassumption.
  - destruct (check_floats (check n) l) as [l'| | |] eqn:A; try discriminate H.
    eapply finish_same; [|exact H]. constructor. eapply check_floats_same; [|exact A]. intros; eapply IH; eassumption.
  - destruct (check n c all_types) as [[c' rc]| | |] eqn:C; try discriminate H.
    destruct (check_both (check n) a b types) as [[[a' b'] u]| | |] eqn:B; try discriminate H. injection H as <- _.
    destruct (BOTH _ _ _ _ _ _ B). constructor; try assumption. eapply IH; exact C.
  - destruct fs as [|f0 fs]; [discriminate H|].
    destruct (valid_args l) as [[l1 ms]| | |] eqn:V; try discriminate H.
    destruct (select types ms (f0 :: fs) None) as [[kept [[f w]|]]|] eqn:SL; try discriminate H.
    destruct (check_args (check n) (params f) l1) as [l2| | |] eqn:A; try discriminate H. injection H as <- _.
    apply SC_add. apply SC_call.
    + destruct (select_best _ _ _ _ _ _ _ SL) as [B|[IN FT]]; [discriminate B|].
      intros g [<-|G]; [exact IN|]. eapply select_kept; [exact SL|].
      destruct kept as [|k kept]; [destruct G | right; exact G].
    + assert (F1 : Forall2 (fun a a1 => forall a2, same_but_casts a1 a2 -> same_but_casts a a2) l l1).
      { eapply valid_args_forall; [|exact V]. intros a a' x I E a2. exact (valid_same _ _ _ _ E). }
      assert (F2 : Forall2 same_but_casts l1 l2).
      { eapply check_args_same; [|exact A]. intros; eapply IH; eassumption. }
      clear -F1 F2. revert l2 F2. induction F1 as [|a a1 r r1 E F IHF]; intros l2 F2; [inversion F2; constructor|].
      inversion F2 as [|? b2 ? r2 G1 G2]; subst. constructor; [apply E; exact G1 | apply IHF; exact G2].
Qed.

(** ** Well typed expressions are accepted *)

Lemma first_order_list : forall l, fold_right (fun a P => first_order a /\ P) True l <-> Forall first_order l.
Proof.
  induction l as [|a r IH]; cbn [fold_right]; [split; [constructor | trivial]|].
  rewrite Forall_cons_iff, IH. reflexivity.
Qed.

Lemma first_order_direct : forall e, first_order e -> direct e = false.
Proof. induction e; cbn [first_order direct]; intros F; try reflexivity; try tauto. Qed.

Lemma first_order_plain : forall s e, first_order e -> plain s e.
Proof.
  intros s e. induction e as [e IH] using expr_depth_ind. intros F.
  assert (L : forall l, fold_right (fun a d => max (depth a) d) 0 l < depth e ->
    fold_right (fun a P => first_order a /\ P) True l -> fold_right (fun a P => plain s a /\ P) True l).
  { induction l as [|a r IHl]; intros D G; [constructor|]. cbn [fold_right] in *.
    destruct G as [G1 G2]. split; [apply IH; [lia | exact G1] | apply IHl; [lia | exact G2]]. }
  destruct e; cbn [depth] in *; cbn [first_order plain] in *; try tauto;
    try (apply L; [lia | exact F]);
    repeat match goal with H : _ /\ _ |- _ => destruct H end;
    repeat split; try (apply IH; [lia | assumption]); apply first_order_direct; assumption.
Qed.

Lemma first_order_type : forall s n e t, depth e < n -> first_order e -> has_type s e t -> res_type e = Some t /\ t <> Nil.
Proof.
  intros s. induction n as [|n IH]; intros e t L F HT; [lia|].
  inversion HT; subst; cbn [first_order depth res_type] in *; try contradiction;
    try (split; [reflexivity | tauto || discriminate]).
  - destruct F as [FA FB].
    destruct (IH a t ltac:(lia) FA H) as [-> N]. destruct (IH b t ltac:(lia) FB H0) as [-> _].
    split; [destruct (ty_eqb t Point || ty_eqb t Color); reflexivity | exact N].
  - destruct F as [FA FB].
    destruct (IH a t0 ltac:(lia) FA H0) as [-> N]. destruct (IH b t0 ltac:(lia) FB H1) as [-> _].
    split; [reflexivity | discriminate].
  - exact (IH a t ltac:(lia) F H).
Qed.

Lemma find_cast_request : forall cur (p : rty), fst p <> Nil -> convertible cur (fst p) -> found (find_cast cur [p]) = true.
Proof.
  intros cur p N C. unfold find_cast. cbn [existsb orb].
  destruct (ty_eqb (fst p) cur) eqn:E; cbn [orb].
  - apply ty_eqb_eq in E. subst cur. apply found_spec. exact N.
  - cbn [best_cast]. apply convertible_priority in C.
    destruct (0 <? priority cur (fst p)) eqn:Q; [apply found_spec; exact N|]. apply Nat.ltb_ge in Q. lia.
Qed.

Lemma pick_exists : forall ta types, (exists p, In p types /\ found (find_cast ta [p]) = true) ->
  exists p, pick ta ta types = Some p /\ fst p <> Nil /\ convertible ta (fst p).
Proof.
  intros ta types. induction types as [|x r IH]; intros (p & I & F); [destruct I|]. cbn [pick].
  destruct (found (find_cast ta [x])) eqn:X; cbn [andb].
  - exists x. destruct (find_cast_ok _ _ X) as [[E|[]] C]. cbn in E.
    split; [reflexivity|]. split; [rewrite E; apply found_spec; exact X | rewrite E; exact C].
  - destruct I as [->|I]; [congruence|]. apply IH. exists p. split; assumption.
Qed.

Lemma finish_accepts : forall t from (p : rty) e, fst p <> Nil -> convertible from (fst p) ->
  exists e' r, finish t from [p] e = Done (e', r) /\ fst r = fst p.
Proof.
  intros t from p e N C. unfold finish. cbn [existsb orb]. rewrite orb_false_r.
  destruct (rty_eqb p (t, false)) eqn:E.
  - apply rty_eqb_eq in E. subst p. do 2 eexists. split; reflexivity.
  - pose proof (find_cast_request from p N C) as F. rewrite F. do 2 eexists. split; [reflexivity|].
    destruct (find_cast_ok _ _ F) as [[G|[]] _]. symmetry. exact G.
Qed.

Lemma sixteen_matrix : forall u, convertible HexTuple u -> u = HexTuple \/ u = Matrix.
Proof.
  intros u H. apply convertible_priority in H. destruct u; cbv in H; try lia; [right | left]; reflexivity.
Qed.

Lemma check_accepts : forall s n e t (p : rty), depth e < n -> first_order e -> has_type s e t ->
  convertible t (fst p) -> fst p <> Nil -> snd p = false ->
  exists e' r, check n e [p] = Done (e', r) /\ fst r = fst p.
Proof.
  intros s. induction n as [|n IH]; intros e t p L F HT C N FL; [lia|].
  assert (FLOAT : forall a, depth a < n -> first_order a -> has_type s a Float ->
    exists a' r, check n a [(Float, false)] = Done (a', r) /\ found r = true).
  { intros a LA FA TA. destruct (IH a Float (Float, false) LA FA TA) as (a' & r & E & R);
      [left; reflexivity | discriminate | reflexivity |].
    exists a', r. split; [exact E | apply found_spec; rewrite R; discriminate]. }
  assert (ONE : forall a v, depth a < n -> first_order a -> has_type s a v -> v <> Nil ->
    exists a' r, check n a [(v, false)] = Done (a', r)).
  { intros a v LA FA TA NV. destruct (IH a v (v, false) LA FA TA) as (a' & r & E & _);
      [left; reflexivity | exact NV | reflexivity |].
    exists a', r. exact E. }
  assert (FLOATS : forall l, fold_right (fun a d => max (depth a) d) 0 l < n -> Forall first_order l ->
    Forall (fun a => has_type s a Float) l -> exists l', check_floats (check n) l = Done l').
  { induction l as [|a r IHl]; intros LL FF TT; cbn [check_floats]; [eexists; reflexivity|].
    cbn [fold_right] in LL. rewrite Forall_cons_iff in FF, TT. destruct FF as [FA FR], TT as [TA TR].
    destruct (FLOAT a ltac:(lia) FA TA) as (a' & ra & -> & _).
    destruct (IHl ltac:(lia) FR TR) as [r' ->]. eexists. reflexivity. }
  assert (BOTH : forall a b u (types : list rty), depth a < n -> depth b < n -> first_order a -> first_order b ->
    has_type s a u -> has_type s b u -> (forall q, In q types -> snd q = false) ->
    (exists q, In q types /\ found (find_cast u [q]) = true) ->
    exists a' b' q, check_both (check n) a b types = Done (a', b', q) /\ In q types).
  { intros a b u types LA LB FA FB TA TB NF EX. unfold check_both.
    destruct (first_order_type s n a u LA FA TA) as [-> _].
    destruct (first_order_type s n b u LB FB TB) as [-> _].
    destruct (pick_exists u types EX) as (q & Q & NQ & CQ). rewrite Q. cbv beta iota.
    destruct (pick_ok _ _ _ _ Q) as [IQ _].
    destruct (IH a u q LA FA TA CQ NQ (NF q IQ)) as (a' & ra & -> & _).
    destruct (IH b u q LB FB TB CQ NQ (NF q IQ)) as (b' & rb & -> & _).
    do 3 eexists. split; [reflexivity | exact IQ]. }
  pose proof (first_order_type s (S n) e t L F HT) as [_ TN].
  pose proof (find_cast_request t p N C) as FC.
  assert (ALL : forall u, u <> Nil -> exists q, In q all_types /\ found (find_cast u [q]) = true).
  { intros u NU. exists (u, false). split.
    - destruct u; cbn; try congruence; tauto.
    - apply find_cast_request; [exact NU | left; reflexivity]. }
  assert (NALL : forall q, In q all_types -> snd q = false).
  { intros q I. cbn in I. repeat (destruct I as [<-|I]; [reflexivity|]). destruct I. }
  destruct e as [c0 c|m|v x|v ar x i|v rf x a|v rf x a i|o a b|o a b|o a b|a b|o a|to a|l|l|c a b|fs l];
    cbn [check]; cbn [first_order] in F; cbn [depth] in L; try contradiction.
  - inversion HT; subst. apply finish_accepts; assumption.
  - inversion HT; subst. apply finish_accepts; assumption.
  - inversion HT; subst. apply finish_accepts; assumption.
  - inversion HT; subst. destruct F as [_ FI].
    destruct (FLOAT i ltac:(lia) FI ltac:(assumption)) as (i' & ri & -> & R). rewrite R. cbn [negb].
    apply finish_accepts; assumption.
  - inversion HT; subst. destruct F as [_ FA].
    destruct (ONE a t ltac:(lia) FA ltac:(assumption) TN) as (a' & ra & A).
    rewrite A. rewrite (check_one _ s _ _ _ _ (first_order_plain s a FA) (first_order_direct a FA) A), rty_eqb_refl.
    apply finish_accepts; assumption.
  - inversion HT; subst. destruct F as [_ [FA FI]].
    destruct (FLOAT i ltac:(lia) FI ltac:(assumption)) as (i' & ri & -> & RI). rewrite RI. cbn [negb].
    destruct (ONE a t ltac:(lia) FA ltac:(assumption) TN) as (a' & ra & A).
    rewrite A. rewrite (check_one _ s _ _ _ _ (first_order_plain s a FA) (first_order_direct a FA) A), rty_eqb_refl.
    apply finish_accepts; assumption.
  - inversion HT; subst. destruct F as [FA FB].
    destruct (BOTH a b t [p] ltac:(lia) ltac:(lia) FA FB ltac:(assumption) ltac:(assumption)) as (a' & b' & q & -> & I).
    + intros q [<-|[]]. exact FL.
    + exists p. split; [left; reflexivity | exact FC].
    + destruct I as [<-|[]]. do 2 eexists. split; reflexivity.
  - inversion HT; subst. destruct F as [FA FB].
    match goal with T : has_type s a ?u |- _ =>
      destruct (BOTH a b u all_types ltac:(lia) ltac:(lia) FA FB ltac:(assumption) ltac:(assumption) NALL) as (a' & b' & q & -> & I);
      [apply ALL; exact (proj2 (first_order_type s n a u ltac:(lia) FA T))|] end.
    rewrite FC. destruct (find_cast_ok _ _ FC) as [[G|[]] _].
    destruct (rty_eqb (find_cast Float [p]) (Float, false)) eqn:E.
    + apply rty_eqb_eq in E. do 2 eexists. split; [reflexivity|]. rewrite E in G. symmetry. exact G.
    + do 2 eexists. split; [reflexivity | symmetry; exact G].
  - inversion HT; subst. destruct F as [FA FB]. rewrite FC.
    match goal with I : In ?u [Point; Vector; Normal] |- _ =>
      destruct (BOTH a b u [(Point, false); (Vector, false); (Normal, false)] ltac:(lia) ltac:(lia) FA FB ltac:(assumption) ltac:(assumption))
        as (a' & b' & q & -> & I');
      [intros q Q; cbn in Q; repeat (destruct Q as [<-|Q]; [reflexivity|]); destruct Q
      | exists (u, false); split;
        [cbn in I |- *; repeat (destruct I as [<-|I]; [tauto|]); destruct I
        | apply find_cast_request; [cbn in I |- *; repeat (destruct I as [<-|I]; [discriminate|]); destruct I | left; reflexivity]]
      |] end.
    destruct (find_cast_ok _ _ FC) as [[G|[]] _].
    destruct (rty_eqb (find_cast Float [p]) (Float, false)); do 2 eexists; (split; [reflexivity | symmetry; exact G]).
  - inversion HT; subst.
    destruct (IH a t p ltac:(lia) F ltac:(assumption) C N FL) as (a' & ra & -> & R).
    do 2 eexists. split; [reflexivity | exact R].
  - inversion HT; subst. destruct F as [NT [FT FA]].
    match goal with T : has_type s a ?u, CU : convertible ?u (fst to) |- _ =>
      destruct (IH a u to ltac:(lia) FA T CU NT FT) as (a' & ra & -> & R) end.
    cbn [existsb orb]. rewrite orb_false_r. destruct (rty_eqb p to) eqn:E.
    + apply rty_eqb_eq in E. subst p. do 2 eexists. split; reflexivity.
    + rewrite FC. destruct (find_cast_ok _ _ FC) as [[G|[]] _]. do 2 eexists. split; [reflexivity | symmetry; exact G].
  - inversion HT; subst. rewrite first_order_list in F.
    destruct (FLOATS l ltac:(lia) F ltac:(assumption)) as [l' ->]. apply finish_accepts; assumption.
  - inversion HT; subst. rewrite first_order_list in F.
    destruct (FLOATS l ltac:(lia) F ltac:(assumption)) as [l' ->].
    destruct (sixteen_matrix _ C) as [E|E].
    + unfold finish. cbn [existsb orb]. rewrite orb_false_r.
      replace p with (HexTuple, false) by (destruct p; cbn in *; congruence). cbn. do 2 eexists. split; reflexivity.
    + apply finish_accepts; [exact N | left; symmetry; exact E].
Qed.

(** ** The choice of a function *)

Lemma priority_other : forall a b, a <> b -> a <> HexTuple -> priority a b < 99.
Proof. intros a b H X. destruct a, b; cbv; try lia; congruence. Qed.

Lemma priority_le : forall a b, priority a b <= 99.
Proof. intros a b. destruct a, b; cbv; lia. Qed.

Lemma fit_args_le : forall more (ps : list rty) ts w ok w',
  fit_args more ps (map Some ts) w ok = Fits w' -> w' <= w + 99 * length ps.
Proof.
  intros more. induction ps as [|p ps IH]; intros ts w ok w' H; destruct ts as [|t ts]; cbn [map fit_args] in H.
  - destruct ok; [|discriminate H]. injection H as <-. lia.
  - destruct more; [|discriminate H]. destruct ok; [|discriminate H]. injection H as <-. lia.
  - destruct ok; [|discriminate H]. injection H as <-. lia.
  - pose proof (priority_le t (fst p)) as PL. cbn [arg_weight] in H. cbn [length].
    destruct (if ty_eqb t (fst p) then 99 else priority t (fst p)) as [|k] eqn:K.
    + apply IH in H. lia.
    + apply IH in H. destruct (ty_eqb t (fst p)); lia.
Qed.

Lemma fit_args_lt : forall more (ps : list rty) ts w ok w', length ps = length ts -> ~ In HexTuple ts ->
  map fst ps <> ts -> fit_args more ps (map Some ts) w ok = Fits w' -> w' < w + 99 * length ps.
Proof.
  intros more. induction ps as [|p ps IH]; intros ts w ok w' L NX D H; destruct ts as [|t ts]; cbn [length] in L; try lia.
  - exfalso. apply D. reflexivity.
  - cbn [map fit_args arg_weight] in *. cbn [In] in NX. cbn [length].
    destruct (ty_eqb t (fst p)) eqn:E.
    + apply ty_eqb_eq in E. subst t. cbn iota in H.
      assert (D' : map fst ps <> ts) by (intros G; apply D; rewrite G; reflexivity).
      apply IH in H; [lia | lia | tauto | exact D'].
    + assert (P : priority t (fst p) < 99).
      { apply priority_other; [|tauto]. intros G. subst t. rewrite ty_eqb_refl in E. discriminate E. }
      destruct (priority t (fst p)) as [|k]; apply fit_args_le in H; lia.
Qed.

Lemma fit_args_exact : forall more (ps : list rty) w,
  fit_args more ps (map Some (map fst ps)) w true = Fits (w + 99 * length ps).
Proof.
  intros more. induction ps as [|p ps IH]; intros w; cbn [map fit_args length].
  - f_equal. lia.
  - unfold arg_weight. rewrite ty_eqb_refl. cbn iota. rewrite IH. f_equal. lia.
Qed.

Lemma select_max : forall types mains cands best kept b,
  select types mains cands best = Some (kept, b) ->
  (forall f w, best = Some (f, w) -> exists f' w', b = Some (f', w') /\ w <= w') /\
  (forall g w, In g cands -> candidate types mains g = Fits w -> exists f' w', b = Some (f', w') /\ w <= w').
Proof.
  intros types mains. induction cands as [|g r IH]; intros best kept b H; cbn [select] in H.
  - injection H as _ <-. split; [intros f w ->; do 2 eexists; split; [reflexivity | lia] | intros g w []].
  - destruct (candidate types mains g) eqn:C.
    + destruct (IH _ _ _ H) as [A B]. split; [exact A|]. intros x w [<-|I] X; [congruence | exact (B x w I X)].
    + destruct (select types mains r best) as [[k b0]|] eqn:E; [|discriminate H]. injection H as <- <-.
      destruct (IH _ _ _ E) as [A B]. split; [exact A|]. intros x w [<-|I] X; [congruence | exact (B x w I X)].
    + match type of H with context [select types mains r ?u] => destruct (select types mains r u) as [[k b0]|] eqn:E; [|discriminate H] end.
      injection H as <- <-. destruct (IH _ _ _ E) as [A B]. split.
      * intros f w0 ->. destruct (w0 <? w) eqn:L.
        -- apply Nat.ltb_lt in L. destruct (A _ _ eq_refl) as (f' & w' & -> & LE). do 2 eexists. split; [reflexivity | lia].
        -- exact (A _ _ eq_refl).
      * intros x w0 [<-|I] X; [|exact (B x w0 I X)]. rewrite C in X. injection X as <-.
        destruct best as [[h wh]|].
        -- destruct (wh <? w) eqn:L; [exact (A _ _ eq_refl)|]. apply Nat.ltb_ge in L.
           destruct (A _ _ eq_refl) as (f' & w' & -> & LE). do 2 eexists. split; [reflexivity | lia].
        -- exact (A _ _ eq_refl).
    + discriminate H.
Qed.

(** Arguments that are not calls are taken with their type. *)
Definition not_call (e : expr) : Prop := match e with Call _ _ => False | _ => True end.

Lemma valid_not_call : forall e t, not_call e -> res_type e = Some t -> valid e = Done (e, Some t).
Proof.
  intros e t NC R. destruct e; cbn [not_call] in NC; try contradiction; cbn [valid]; rewrite R; reflexivity.
Qed.

Lemma valid_args_not_call : forall l ts, Forall2 (fun a t => not_call a /\ res_type a = Some t) l ts ->
  valid_args l = Done (l, map Some ts).
Proof.
  intros l ts F. induction F as [|a t r ts [NC R] F IH]; [reflexivity|].
  cbn [valid_args map]. rewrite (valid_not_call _ _ NC R), IH. reflexivity.
Qed.

Lemma chosen : forall fs types f ts kept b,
  ~ In HexTuple ts -> In f fs -> map fst (params f) = ts -> In (ret f) (map fst types) -> ret f <> Nil ->
  (forall g, In g fs -> g = f \/ map fst (params g) <> ts) ->
  select types (map Some ts) fs None = Some (kept, b) ->
  exists w, b = Some (f, w).
Proof.
  intros fs types f ts kept b NX IF PF IR NR OTHER SL.
  assert (FC : find_cast (ret f) types = (ret f, false)).
  { unfold find_cast. destruct (existsb (fun t => ty_eqb (fst t) (ret f)) types) eqn:E; [reflexivity|].
    apply in_map_iff in IR as [x [X1 X2]].
    assert (T : existsb (fun t => ty_eqb (fst t) (ret f)) types = true).
    { apply existsb_exists. exists x. split; [exact X2 | apply ty_eqb_eq; exact X1]. }
    congruence. }
  assert (CF : candidate types (map Some ts) f = Fits (1 + 99 * length (params f))).
  { assert (LT : length (map Some ts) = length (params f)) by (rewrite map_length, <- PF; apply map_length).
    unfold candidate. rewrite LT, Nat.eqb_refl, Nat.ltb_irrefl.
    assert (Z : forall b v : bool, b && (negb v && negb true || v && false) = false) by (intros [] []; reflexivity).
    rewrite Z, FC.
    replace (found (ret f, false)) with true by (symmetry; apply found_spec; exact NR).
    rewrite rty_eqb_refl. rewrite <- PF. apply fit_args_exact. }
  destruct (select_max _ _ _ _ _ _ SL) as [_ MX].
  destruct (MX f _ IF CF) as (g & w & E & LE). subst b.
  destruct (select_best _ _ _ _ _ _ _ SL) as [B|[IG CG]]; [discriminate B|].
  destruct (OTHER g IG) as [->|D]; [eexists; reflexivity|].
  exfalso.
  destruct (candidate_fits _ _ _ _ CG) as (_ & LP & CNT). rewrite map_length in LP, CNT.
  assert (LT : length ts = length (params f)) by (rewrite <- PF; apply map_length).
  unfold candidate in CG.
  destruct ((0 <? length (params g)) && _) eqn:Q in CG; [discriminate CG|]. clear Q.
  destruct (found (find_cast (ret g) types)); [|discriminate CG].
  assert (W0 : (if rty_eqb (find_cast (ret g) types) (ret g, false) then 1 else 0) <= 1)
    by (destruct (rty_eqb (find_cast (ret g) types) (ret g, false)); lia).
  destruct (Nat.eq_dec (length (params g)) (length ts)) as [EQ|NE].
  - pose proof (fit_args_lt _ _ _ _ _ _ EQ NX D CG). nia.
  - pose proof (fit_args_le _ _ _ _ _ _ CG). nia.
Qed.

Lemma requested_cast : forall t types, In t (map fst types) -> find_cast t types = (t, false).
Proof.
  intros t types IR.
  unfold find_cast. destruct (existsb (fun u => ty_eqb (fst u) t) types) eqn:E; [reflexivity|].
  apply in_map_iff in IR as [x [X1 X2]].
  assert (T : existsb (fun u => ty_eqb (fst u) t) types = true).
  { apply existsb_exists. exists x. split; [exact X2 | apply ty_eqb_eq; exact X1]. }
  congruence.
Qed.

Lemma overload : forall n fs args types f ts e' r,
  (forall args' ms, valid_args args = Done (args', ms) -> ms = map Some ts) -> ~ In HexTuple ts ->
  In f fs -> map fst (params f) = ts -> In (ret f) (map fst types) -> ret f <> Nil ->
  (forall g, In g fs -> g = f \/ map fst (params g) <> ts) ->
  check n (Call fs args) types = Done (e', r) ->
  exists rest args', e' = Cast (ret f, false) (Call (f :: rest) args').
Proof.
  intros n fs args types f ts e' r FA NX IF PF IR NR OTHER H.
  destruct n as [|n]; [discriminate H|]. cbn [check] in H.
  destruct fs as [|f0 fs]; [destruct IF|].
  destruct (valid_args args) as [[args1 ms]| | |] eqn:VA; try discriminate H.
  rewrite (FA _ _ eq_refl) in H.
  destruct (select types (map Some ts) (f0 :: fs) None) as [[kept b]|] eqn:SL; [|discriminate H].
  destruct (chosen _ _ _ _ _ _ NX IF PF IR NR OTHER SL) as [w ->].
  destruct (check_args (check n) (params f) args1) as [l2| | |] eqn:A; try discriminate H. injection H as <- _.
  rewrite requested_cast by exact IR. do 2 eexists. reflexivity.
Qed.

Lemma written_res : forall e t, written (fun t => In t [Point; Color]) e t -> not_call e /\ res_type e = Some t.
Proof.
  intros e t H. induction H; cbn [not_call res_type] in *; try (split; [exact I | reflexivity]).
  - split; [exact I|]. destruct IHwritten1 as [_ ->], IHwritten2 as [_ ->]. destruct (_ || _); reflexivity.
  - split; [exact I|]. destruct IHwritten1 as [_ ->], IHwritten2 as [_ ->]. reflexivity.
  - split; [exact I|]. destruct IHwritten1 as [_ ->], IHwritten2 as [_ ->].
    destruct H0 as [<-|[<-|[]]]; reflexivity.
  - split; [exact I|]. destruct IHwritten1 as [_ ->], IHwritten2 as [_ ->]. reflexivity.
  - split; [exact I|]. apply IHwritten.
Qed.

Lemma in_all_types : forall t, t <> Nil -> In t (map fst all_types).
Proof. intros t N. destruct t; cbn; tauto. Qed.

Lemma select_none_kept : forall types mains cands best b,
  select types mains cands best = Some ([], b) -> b = best.
Proof.
  intros types mains. induction cands as [|f r IH]; intros best b H; cbn [select] in H.
  - congruence.
  - destruct (candidate types mains f).
    + eapply IH. exact H.
    + destruct (select types mains r best) as [[k b0]|]; discriminate H.
    + match type of H with context [select types mains r ?u] => destruct (select types mains r u) as [[k b0]|] end; discriminate H.
    + discriminate H.
Qed.

Lemma given_valid : forall n e t, depth e < n -> given e t -> forall e' m, valid e = Done (e', m) -> m = Some t.
Proof.
  induction n as [|n IHn]; [intros; lia|]. intros e t D G e' m V.
  destruct G as [a t W|fs args f ts FG NX IF PF NR OTHER].
  - destruct (written_res _ _ W) as [NC R]. rewrite (valid_not_call _ _ NC R) in V. congruence.
  - cbn [valid] in V. rewrite valid_args_eq in V. destruct fs as [|f0 fs]; [destruct IF|].
    destruct (valid_args args) as [[args1 ms]| | |] eqn:VA; try discriminate V.
    assert (DA : forall a, In a args -> depth a < n).
    { intros a I. cbn [depth] in D. pose proof (depth_in _ _ I). lia. }
    assert (E : ms = map Some ts).
    { clear - IHn DA FG VA. revert args1 ms VA. induction FG as [|a t l ts G FG IH]; intros args1 ms VA.
      - cbn in VA. injection VA as _ <-. reflexivity.
      - cbn [valid_args] in VA. destruct (valid a) as [[a' m]| | |] eqn:Va; try discriminate VA.
        destruct (valid_args l) as [[l' ms']| | |] eqn:Vl; try discriminate VA. injection VA as <- <-.
        cbn [map]. rewrite (IHn _ _ (DA _ (or_introl eq_refl)) G _ _ Va).
        f_equal. eapply IH; [|reflexivity]. intros x I. apply DA. right. exact I. }
    subst ms.
    destruct (select all_types (map Some ts) (f0 :: fs) None) as [[kept b]|] eqn:SL; [|discriminate V].
    destruct (chosen _ _ _ _ _ _ NX IF PF (in_all_types _ NR) NR OTHER SL) as [w ->].
    injection V as _ <-. destruct kept as [|k kept]; [|reflexivity].
    discriminate (select_none_kept _ _ _ _ _ SL).
Qed.

Lemma given_args : forall args ts, Forall2 given args ts ->
  forall args' ms, valid_args args = Done (args', ms) -> ms = map Some ts.
Proof.
  intros args ts FG. induction FG as [|a t l ts G FG IH]; intros args1 ms VA.
  - cbn in VA. injection VA as _ <-. reflexivity.
  - cbn [valid_args] in VA. destruct (valid a) as [[a' m]| | |] eqn:Va; try discriminate VA.
    destruct (valid_args l) as [[l' ms']| | |] eqn:Vl; try discriminate VA. injection VA as <- <-.
    cbn [map]. rewrite (given_valid _ _ _ (Nat.lt_succ_diag_r _) G _ _ Va). f_equal. eapply IH. reflexivity.
Qed.
