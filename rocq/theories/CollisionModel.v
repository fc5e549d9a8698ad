(** Model of collision.hpp / collision.cpp.  Definitions only. *)
From Verif Require Import Outcome Num GridModel.
Local Open Scope Z_scope.

Section Collision.
Context {T : Type} {NT : Num T}.

(** collision.hpp:55-60 *)
Inductive cmsg := Crash | Obstacle | NoneMsg.

(** collision.hpp:160-163: data members of class Collision *)
Record collision := mkCollision {
  c_brad : T; c_srad : T; c_othr : T; c_occ : T
}.

(** collision.cpp:46-63 *)
Definition collision_ctor (boundary search obsthr occ : T) : res collision :=
  if nlt search boundary then Throw EInvalidArgument
  else if nlt (nofZ 100) occ || nlt occ n0 then Throw EInvalidArgument
  else Ok (mkCollision boundary search obsthr occ).

(** collision.hpp:63-82: the constant members of CollisionConfig ... *)
Record cfg := mkCfg { r_bnd : Z; r_col : Z; r_max : Z; cx : Z; cy : Z }.
(** ... and the mutable ones. *)
Record cst := mkCst { c_dx : Z; c_dy : Z; c_sq : Z }.
Definition cst0 : cst := mkCst 0 0 (-1).

(** collision.cpp:216-243.  [cfg.cx - cj] is int minus unsigned, so it is computed modulo 2^32;
    the sum of squares likewise, and then converted to int. *)
Definition checkCell (c : collision) (cf : cfg) (g : grid T) (cj ci : Z) (s : cst)
  : res (bool * cst) :=
  if gridBounds g ci cj then
    let* v := getCell g ci cj in
    if negb (nlt v (c_occ c)) then
      let ux := u32 (cx cf - cj) in
      let uy := u32 (cy cf - ci) in
      let sq := s32 (u32 (ux * ux) + u32 (uy * uy)) in
      let s' := if (sq <? c_sq s) || (c_sq s =? -1)
                then mkCst (s32 (cj - cx cf)) (s32 (ci - cy cf)) sq
                else s in
      let* rc2 := int_ck (r_col cf * r_col cf) in
      Ok (sq <=? rc2, s')
    else Ok (false, s)
  else Ok (false, s).

(** Evaluate a check, stop at the first one that returns true (the chain of ifs, 175-196). *)
Definition orelse (m : res (bool * cst)) (k : cst -> res (bool * cst)) : res (bool * cst) :=
  let* ' (b, s) := m in if b then Ok (true, s) else k s.

(** One call [checkCell(cfg, grid, a, b)] with int arguments [a], [b]: the int expressions are
    evaluated (overflow is UB), then converted to unsigned. *)
Definition check_at (c : collision) (cf : cfg) (g : grid T) (a b : Z) (s : cst)
  : res (bool * cst) :=
  let* a' := int_ck a in
  let* b' := int_ck b in
  checkCell c cf g (u32 a') (u32 b') s.

(** collision.cpp:175-196: the four quadrant cells of one loop iteration *)
Definition check4 (c : collision) (cf : cfg) (g : grid T) (x y : Z) (s : cst)
  : res (bool * cst) :=
  orelse (check_at c cf g (cx cf - x) (cy cf + y) s) (fun s =>
  orelse (check_at c cf g (cx cf - y) (cy cf - x) s) (fun s =>
  orelse (check_at c cf g (cx cf + x) (cy cf - y) s) (fun s =>
          check_at c cf g (cx cf + y) (cy cf + x) s))).

(** collision.cpp:198-210: one step of the circle walk (x, y, err) *)
Definition walk_step (x y err : Z) : res (Z * Z * Z) :=
  let r := err in
  let* ' (y, err) :=
    (if r <=? y then
       let* y := int_ck (y + 1) in
       let* t := int_ck (2 * y) in let* t := int_ck (t + 1) in
       let* e := int_ck (err + t) in Ok (y, e)
     else Ok (y, err)) in
  if (r >? x) || (err >? y) then
    let* x := int_ck (x + 1) in
    let* t := int_ck (2 * x) in let* t := int_ck (t + 1) in
    let* e := int_ck (err + t) in Ok (x, y, e)
  else Ok (x, y, err).

(** collision.cpp:172-213: the while loop.  Fuel exhaustion is [Diverge]. *)
Fixpoint circle_loop (fuel : nat) (c : collision) (cf : cfg) (g : grid T)
         (x y err : Z) (s : cst) : res (bool * cst) :=
  match fuel with
  | O => Diverge
  | S f =>
      if x <? 0 then
        orelse (check4 c cf g x y s) (fun s =>
          let* ' (x', y', err') := walk_step x y err in
          circle_loop f c cf g x' y' err' s)
      else Ok (false, s)
  end.

(** collision.cpp:166-214 *)
Definition bresenhamCircle (c : collision) (cf : cfg) (g : grid T) (r : Z) (s : cst)
  : res (bool * cst) :=
  let* x := int_ck (- r) in
  let* t := int_ck (2 * r) in
  let* err := int_ck (2 - t) in
  circle_loop (S (Z.to_nat (2 * r + 1))) c cf g x 0 err s.

(** collision.cpp:148-164 *)
Fixpoint search_loop (fuel : nat) (c : collision) (cf : cfg) (g : grid T) (r : Z) (s : cst)
  : res (bool * cst) :=
  match fuel with
  | O => Diverge
  | S f =>
      if r <=? r_max cf then
        orelse (bresenhamCircle c cf g r s) (fun s =>
          let* r' := int_ck (r + 1) in
          search_loop f c cf g r' s)
      else Ok (false, s)
  end.

Definition search (c : collision) (cf : cfg) (g : grid T) (s : cst) : res (bool * cst) :=
  search_loop (S (Z.to_nat (r_max cf - r_bnd cf + 1))) c cf g (r_bnd cf) s.

(** collision.cpp:68-73 (= 98-103 = 128-133): construction of the CollisionConfig.
    The floors are doubles implicitly converted to int; psg are unsigned converted to int. *)
Definition mk_config (c : collision) (g : grid T) (px py : T) : res cfg :=
  let* ' (i, j) := world2Grid g px py in
  let* rb := to_int (nfloor (c_brad c / g_res g))%num in
  let* rc := to_int (nfloor ((c_brad c + c_othr c) / g_res g))%num in
  let* rm := to_int (nfloor (c_srad c / g_res g))%num in
  Ok (mkCfg rb rc rm (s32 j) (s32 i)).

(** collision.cpp:65-93 *)
Definition minDistance (c : collision) (g : grid T) (px py : T) : res (cmsg * T) :=
  let* cf := mk_config c g px py in
  let* ' (b, s) := search c cf g cst0 in
  if b then Ok (Crash, n0)
  else if negb (c_sq s =? -1) then
    Ok (Obstacle, (nsqrt (nofZ (c_sq s)) * g_res g - c_brad c)%num)
  else Ok (NoneMsg, nmax).

(** collision.cpp:95-124: search is called twice on the same configuration *)
Definition minDirection (c : collision) (g : grid T) (px py : T) : res (cmsg * (T * T)) :=
  let* cf := mk_config c g px py in
  let* ' (_, s) := search c cf g cst0 in
  let* ' (b, s) := search c cf g s in
  if b then Ok (Crash, (n0, n0))
  else if negb (c_sq s =? -1) then
    Ok (Obstacle, ((g_res g * nofZ (c_dx s))%num, (g_res g * nofZ (c_dy s))%num))
  else Ok (NoneMsg, (nmax, nmax)).

(** collision.cpp:126-141 *)
Definition collisionCheck (c : collision) (g : grid T) (px py : T) : res bool :=
  let* cf := mk_config c g px py in
  let* ' (b, _) := search c cf g cst0 in
  Ok b.

(** collision.cpp:143-146 *)
Definition totalPadding (c : collision) : T := (c_brad c + c_othr c)%num.

End Collision.
Arguments collision T : clear implicits.
