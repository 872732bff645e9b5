(** * The loop of output_tab over levels and Domains: src/output_tab.c:43-69

    As in VtkOneModel: [mesh] are the Domains of each level, [None] where this process has no Grid; [nlevel], [ndomain] are those of the output block. *)
From Coq Require Import ZArith List Bool Reals.
From Verif Require Import CStr MeshModel SliceModel TabOneModel.
Import ListNotations.
Open Scope R_scope.

Section Mesh.
Variables (wg : bool) (nghost : Z) (num : nat) (o : slice) (nlevel ndomain : Z) (expr : Z -> Z -> Z -> Z -> Z -> R).
Notation tfile := (Z * Z * list (list Z * R))%type.
(** output_tab.c:51-65: the body of the loops *)
Definition tab_domain (nl nd : Z) (d : option ogrid) (g : R * R) : res (list tfile * (R * R)) :=
  match d with
  | None => Ok ([], g)
  | Some G => if ((nlevel =? -1) || (nlevel =? nl))%Z && ((ndomain =? -1) || (ndomain =? nd))%Z then
      '(f, g) <- output_tab_grid wg nghost num G o (expr nl nd) g;;
      Ok (match f with Some rows => [(nl, nd, rows)] | None => [] end, g)
    else Ok ([], g)
  end.
(** output_tab.c:50 *)
Fixpoint tab_domains (nl nd : Z) (ds : list (option ogrid)) (g : R * R) : res (list tfile * (R * R)) :=
  match ds with
  | [] => Ok ([], g)
  | d :: ds => '(f, g) <- tab_domain nl nd d g;; '(fs, g) <- tab_domains nl (nd + 1)%Z ds g;; Ok (f ++ fs, g)
  end.
(** output_tab.c:49 *)
Fixpoint tab_levels (nl : Z) (mesh : list (list (option ogrid))) (g : R * R) : res (list tfile * (R * R)) :=
  match mesh with
  | [] => Ok ([], g)
  | ds :: mesh => '(f, g) <- tab_domains nl 0 ds g;; '(fs, g) <- tab_levels (nl + 1)%Z mesh g;; Ok (f ++ fs, g)
  end.
Definition output_tab (mesh : list (list (option ogrid))) (g : R * R) := tab_levels 0 mesh g.
End Mesh.
