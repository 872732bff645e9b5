(** * EMF corrections in a plane (C42) *)
From Coq Require Import Reals ZArith Bool Lia Lra ZifyBool.
From Verif Require Import SmrApply.
Open Scope Z_scope.
Local Open Scope R_scope.

(** The corrections of the faces normal to an axis [a] by the edges along a third axis: [b] is the remaining
    axis, [D b a] the correction of an edge.  The region is [sa..ea] by [sb..eb], the Grid [fa..la] by [fb..lb];
    [a0], [a1], [b0], [b1] tell which boundaries of the region are corrected. *)
Lemma plane : forall (sa ea sb eb fa la fb lb : Z) (a0 a1 b0 b1 : bool) (r : R) (D : Z -> Z -> R) (b a : Z),
  (0 <= ea - sa + 1)%Z -> (0 <= eb - sb + 1)%Z -> (fa <= la)%Z -> (fb <= lb)%Z -> (fb <= b <= lb)%Z ->
  (a0 || a1 = true -> sb <= eb)%Z -> (b0 || b1 = true -> sa <= ea)%Z ->
  (a0 = true \/ sa = fa \/ eb < sb)%Z -> (a1 = true \/ ea = la \/ eb < sb)%Z ->
  (b0 = true \/ sb = fb \/ ea < sa)%Z -> (b1 = true \/ eb = lb \/ ea < sa)%Z ->
  (sa <= ea \/ sb <= eb)%Z -> (ea < sa -> a0 && a1 = false)%Z -> (eb < sb -> b0 && b1 = false)%Z ->
  (btw sb b eb && btw sa a (ea + 1) && (sa <=? ea)%Z && negb ((a =? sa)%Z && a0) && negb ((a =? ea + 1)%Z && a1) = false) ->
  let J b a := btw sb b (eb + 1) && btw sa a (ea + 1) in
  r * ind (J (b + 1)%Z a) (D (b + 1)%Z a) - r * ind (J b a) (D b a) =
    ind (a0 && btw sb b eb && (a =? sa)%Z) (r * D (b + 1)%Z a - r * D b a) + ind (a1 && btw sb b eb && (a =? ea + 1)%Z) (r * D (b + 1)%Z a - r * D b a)
    + ind (a0 && (ea <? sa)%Z && (b =? sb - 1)%Z && (a =? sa)%Z) (r * D (b + 1)%Z a) + ind (a1 && (ea <? sa)%Z && (b =? sb - 1)%Z && (a =? ea + 1)%Z) (r * D (b + 1)%Z a)
    - ind (a0 && (ea <? sa)%Z && (b =? eb + 1)%Z && (a =? sa)%Z) (r * D b a) - ind (a1 && (ea <? sa)%Z && (b =? eb + 1)%Z && (a =? ea + 1)%Z) (r * D b a)
    + ind (b0 && (b =? sb - 1)%Z && btw sa a (if a1 || (ea =? la)%Z || (eb <? sb)%Z then ea + 1 else ea)%Z) (r * D (b + 1)%Z a)
    - ind (b1 && (b =? eb + 1)%Z && btw sa a (if a1 || (ea =? la)%Z || (eb <? sb)%Z then ea + 1 else ea)%Z) (r * D b a).
Proof.
  intros sa ea sb eb fa la fb lb a0 a1 b0 b1 r D b a H1 H2 H3 H4 H5 H6 H7 H8 H9 H10 H11 H12 H13 H14 NS. cbv zeta.
  assert (LA : (if a1 || (ea =? la)%Z || (eb <? sb)%Z then ea + 1 else ea)%Z = (ea + 1)%Z) by (destruct (a1 || (ea =? la)%Z || (eb <? sb)%Z) eqn:Q; lia).
  rewrite LA. clear LA. generalize (D (b + 1)%Z a) as x. generalize (D b a) as y. intros y x. clear D. unfold btw in *.
  destruct ((sa <=? a) && (a <=? ea + 1))%Z eqn:A.
  2:{ replace (a =? sa)%Z with false by lia. replace (a =? ea + 1)%Z with false by lia. rewrite !andb_false_r. cbn [ind]. lra. }
  rewrite !andb_true_r in *.
  destruct ((sb <=? b) && (b <=? eb))%Z eqn:B.
  - replace ((sb <=? b + 1) && (b + 1 <=? eb + 1))%Z with true by lia. replace ((sb <=? b) && (b <=? eb + 1))%Z with true by lia.
    replace (b =? sb - 1)%Z with false by lia. replace (b =? eb + 1)%Z with false by lia. rewrite !andb_true_r in *. rewrite !andb_false_r. cbn [ind andb] in *.
    assert (Q : xorb (a0 && (a =? sa)%Z) (a1 && (a =? ea + 1)%Z) = true) by (destruct a0, a1; destruct (a =? sa)%Z eqn:X; destruct (a =? ea + 1)%Z eqn:Y; cbn in *; try reflexivity; exfalso; lia).
    destruct (a0 && (a =? sa)%Z), (a1 && (a =? ea + 1)%Z); try discriminate; cbn [ind]; lra.
  - rewrite !andb_false_r. cbn [ind andb].
    destruct (b =? sb - 1)%Z eqn:B1.
    + replace ((sb <=? b + 1) && (b + 1 <=? eb + 1))%Z with true by lia. replace ((sb <=? b) && (b <=? eb + 1))%Z with false by lia.
      rewrite !andb_true_r in *. destruct (b =? eb + 1)%Z eqn:B2; [exfalso; lia|]. rewrite !andb_false_r. cbn [ind andb].
      destruct (ea <? sa)%Z eqn:T.
      * replace b0 with false by (destruct b0; [exfalso; lia|reflexivity]). replace (a =? sa)%Z with true by lia. replace (a =? ea + 1)%Z with true by lia. rewrite !andb_true_r.
        assert (Q : xorb a0 a1 = true) by (destruct a0, a1; cbn in *; try reflexivity; exfalso; lia).
        destruct a0, a1; try discriminate; cbn [ind]; lra.
      * rewrite !andb_false_r. cbn [andb ind]. assert (b0 = true) as -> by (destruct b0; [reflexivity|exfalso; lia]). cbn [ind]. lra.
    + rewrite !andb_false_r. cbn [ind andb].
      replace ((sb <=? b + 1) && (b + 1 <=? eb + 1))%Z with false by lia.
      destruct (b =? eb + 1)%Z eqn:B2.
      * replace ((sb <=? b) && (b <=? eb + 1))%Z with true by lia. rewrite !andb_true_r in *. cbn [ind].
        destruct (ea <? sa)%Z eqn:T.
        -- replace b1 with false by (destruct b1; [exfalso; lia|reflexivity]). replace (a =? sa)%Z with true by lia. replace (a =? ea + 1)%Z with true by lia. rewrite !andb_true_r.
           assert (Q : xorb a0 a1 = true) by (destruct a0, a1; cbn in *; try reflexivity; exfalso; lia).
           destruct a0, a1; try discriminate; cbn [ind]; lra.
        -- rewrite !andb_false_r. cbn [andb ind]. assert (b1 = true) as -> by (destruct b1; [reflexivity|exfalso; lia]). cbn [ind]. lra.
      * replace ((sb <=? b) && (b <=? eb + 1))%Z with false by lia. rewrite !andb_false_r. cbn [ind andb]. lra.
Qed.
