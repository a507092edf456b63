(** C57: frustum culling. *)
From Verif Require Import Base Cull_Model.
From Coq Require Import QArith.

Section S.
Context {F : Type}.
Variables (add mul : F -> F -> F) (ge : F -> F -> bool) (zero : F).
Let dist := distance add mul zero.

Lemma in_front_spec plane points m found :
  in_front add mul ge zero plane points m found =
  orb found (existsb (fun p => ge (dist plane p) m) points).
Proof.
  revert found. induction points as [|p ps IH]; intros found; cbn.
  - rewrite orb_false_r. reflexivity.
  - rewrite IH. fold (dist plane p). destruct (ge (dist plane p) m), found; reflexivity.
Qed.
Lemma existsb_false_forall {A} (f : A -> bool) l :
  existsb f l = false <-> forall x, In x l -> f x = false.
Proof.
  induction l as [|a l IH]; cbn; [intuition|].
  rewrite orb_false_iff, IH. split; [intros [H1 H2] x [<-|I]; auto|auto].
Qed.
Lemma cull_spec planes points m :
  match cull_loop add mul ge zero planes points m with
  | (true, Some pl) => exists pre post, planes = pre ++ pl :: post /\
      (forall p, In p points -> ge (dist pl p) m = false) /\
      (forall pl', In pl' pre -> exists p, In p points /\ ge (dist pl' p) m = true)
  | (false, None) =>
      forall pl', In pl' planes -> exists p, In p points /\ ge (dist pl' p) m = true
  | _ => False
  end.
Proof.
  induction planes as [|pl pls IH]; cbn [cull_loop].
  - intros ? [].
  - rewrite in_front_spec. cbn [orb].
    destruct (existsb (fun p => ge (dist pl p) m) points) eqn:E.
    + apply existsb_exists in E.
      destruct (cull_loop add mul ge zero pls points m) as [[|] [q|]]; try exact IH.
      * destruct IH as (pre & post & -> & A & B). exists (pl :: pre), post.
        split; [reflexivity|]. split; [exact A|]. intros pl' [<-|I]; auto.
      * intros pl' [<-|I]; auto.
    + exists [], pls. split; [reflexivity|]. split; [|intros ? []].
      intros p I. exact (proj1 (existsb_false_forall _ _) E p I).
Qed.
End S.

Definition qge (a b : Q) : bool := Qle_bool b a.
(** signed distance of a point from a plane (a, b, c, d) *)
Definition signed_dist (pl pt : list Q) : Q :=
  nth 0 pl 0 * nth 0 pt 0 + nth 1 pl 0 * nth 1 pt 0 + nth 2 pl 0 * nth 2 pt 0 + nth 3 pl 0.
Definition behind (minD : Q) (pl pt : list Q) : Prop := signed_dist pl pt < - minD.

Lemma qge_false a b : qge a b = false <-> a < b.
Proof.
  unfold qge. split; intros H.
  - apply Qnot_le_lt. intros L. apply Qle_bool_iff in L. congruence.
  - destruct (Qle_bool b a) eqn:E; [|reflexivity]. apply Qle_bool_iff in E.
    exfalso. eapply Qlt_not_le; eassumption.
Qed.
Lemma qge_true a b : qge a b = true <-> ~ a < b.
Proof. rewrite <- qge_false. destruct (qge a b); intuition discriminate. Qed.

(** C57, for all plane and point arrays of the accepted widths, over exact
    (rational) arithmetic. *)
Theorem C57_cull_iff_some_plane_excludes_all :
  forall wq planes points minD, wq = 3%nat \/ wq = 4%nat ->
  exists culled which,
  plane_cull Qplus Qmult Qopp qge 0 4 wq planes points minD = Ok (culled, which) /\
  (culled = true <-> exists pl, In pl planes /\ forall pt, In pt points -> behind minD pl pt) /\
  match which with
  | Some pl => culled = true /\ exists pre post, planes = pre ++ pl :: post /\
      (forall pt, In pt points -> behind minD pl pt) /\
      (forall pl', In pl' pre -> exists pt, In pt points /\ ~ behind minD pl' pt)
  | None => culled = false
  end.
Proof.
  intros wq planes points minD W.
  pose proof (cull_spec Qplus Qmult qge 0 planes points (- minD)) as S.
  destruct (cull_loop Qplus Qmult qge 0 planes points (- minD)) as [c w] eqn:E.
  exists c, w. split.
  { unfold plane_cull. rewrite E. destruct W as [-> | ->]; reflexivity. }
  destruct c, w as [pl|]; try contradiction.
  - destruct S as (pre & post & -> & A & B).
    assert (A' : forall pt, In pt points -> behind minD pl pt)
      by (intros pt I; apply qge_false, A, I).
    split; [|split; [reflexivity|]].
    + split; [intros _|reflexivity]. exists pl. split; [apply in_or_app; right; left; reflexivity|exact A'].
    + exists pre, post. split; [reflexivity|]. split; [exact A'|].
      intros pl' I. destruct (B pl' I) as (p & Ip & G). exists p. split; [exact Ip|]. apply qge_true, G.
  - split; [|reflexivity]. split; [discriminate|]. intros (pl & I & H).
    destruct (S pl I) as (p & Ip & G). apply qge_true in G. exfalso. apply G, H, Ip.
Qed.
Print Assumptions C57_cull_iff_some_plane_excludes_all.

(** C57.  The same for arbitrary arithmetic and comparison (so in particular for
    single-precision floats with rounding): culled iff for some plane no point
    compares [>=]; the plane returned is the first such. *)
Theorem C57_cull_any_arithmetic :
  forall (F : Type) add mul neg ge (zero : F) wq planes points minD,
  wq = 3%nat \/ wq = 4%nat ->
  exists r, plane_cull add mul neg ge zero 4 wq planes points minD = Ok r /\
  match r with
  | (true, Some pl) => exists pre post, planes = pre ++ pl :: post /\
      (forall p, In p points -> ge (distance add mul zero pl p) (neg minD) = false) /\
      (forall pl', In pl' pre -> exists p, In p points /\
          ge (distance add mul zero pl' p) (neg minD) = true)
  | (false, None) => forall pl', In pl' planes -> exists p, In p points /\
          ge (distance add mul zero pl' p) (neg minD) = true
  | _ => False
  end.
Proof.
  intros F add mul neg ge zero wq planes points minD W. eexists. split.
  - unfold plane_cull. destruct W as [-> | ->]; reflexivity.
  - apply cull_spec.
Qed.
Print Assumptions C57_cull_any_arithmetic.

Theorem C57_wrong_shape_rejected :
  forall (F : Type) add mul neg ge (zero : F) wp wq planes points minD,
  wp <> 4%nat \/ (wq <> 3%nat /\ wq <> 4%nat) ->
  plane_cull add mul neg ge zero wp wq planes points minD = Exc TypeError.
Proof.
  intros F add mul neg ge zero wp wq planes points minD H. unfold plane_cull.
  destruct (Nat.eqb_spec wp 4) as [E|N]; cbn [negb]; [|reflexivity].
  destruct H as [H|[H1 H2]]; [contradiction|].
  apply Nat.eqb_neq in H1, H2. rewrite H1, H2. reflexivity.
Qed.
Print Assumptions C57_wrong_shape_rejected.

(** Non-vacuity: two planes, the second excludes both points. *)
Example C57_ex :
  plane_cull Qplus Qmult Qopp qge 0 4 3 [[1;0;0;5]; [0;1;0;-(10)]] [[1;2;3];[4;5;6]] (1#2)
  = Ok (true, Some [0;1;0;-(10)]).
Proof. reflexivity. Qed.
