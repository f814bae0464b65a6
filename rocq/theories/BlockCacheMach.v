(** * The block cache with a client that holds pointers *)
From Coq Require Import Arith Bool List.
From Verif Require Import BlockCacheModel BlockCacheSpec.
Import ListNotations.

Section Mach.
Context {V : Type}.
Variable ordered : bool.
Variable csize wsize : nat.
Variable iter : list (nat * nat) -> list (nat * nat).

(** the cache, the device and the pointers of the client *)

Record mach := mkM {
  mc : cache;
  md : dev V;
  mregs : nat -> option (nat * nat)
}.

(** memory initially contains [junk] *)
Definition m_init (junk : nat -> list V) (d0 : nat -> list V) (o : list (list nat)) : mach :=
  mkM (c_init csize wsize) (mkDev junk d0 [] 0 o) (fun _ => None).

(** one call of the client; [None] is undefined behaviour (including the use of
    a pointer that was never obtained) *)
Definition m_step (o : op V) (m : mach) : option (res V * mach) :=
  let (c, d, g) := m in
  match o with
  | OGet r b s =>
      match get_subblock ordered csize b s c d with
      | (Done p, c, d) => Some (ROk, mkM c d (upd g r (Some p)))
      | (Thrown, c, d) => Some (RThrow, mkM c d g)
      | (Undefined, _, _) => None
      end
  | OPrefetch b =>
      match prefetch_block ordered csize b c d with
      | (Done _, c, d) => Some (ROk, mkM c d g)
      | (Thrown, c, d) => Some (RThrow, mkM c d g)
      | (Undefined, _, _) => None
      end
  | ORetain b => let (t, c) := retain_block b c in Some (RBool t, mkM c d g)
  | ORelease b => let (t, c) := release_block b c in Some (RBool t, mkM c d g)
  | ODirty b =>
      let '(t, c, d) := make_dirty ordered b c d in Some (RBool t, mkM c d g)
  | OLoad r =>
      match g r with
      | Some (buf, k) =>
          match nth_error (heap d buf) k with
          | Some v => Some (RVal v, m)
          | None => None
          end
      | None => None
      end
  | OStore r v =>
      match g r with
      | Some (buf, k) =>
          Some (ROk, mkM c (mkDev (upd (heap d) buf (lset (heap d buf) k v))
                                  (disk d) (queue d) (nextq d) (orc d)) g)
      | None => None
      end
  | OFlush =>
      match flush ordered wsize iter c d with
      | Some (c, d) => Some (RDisk (disk d), mkM c d g)
      | None => None
      end
  | OClear => let (c, d) := clear ordered csize c d in Some (ROk, mkM c d g)
  | OExt b blk =>
      let (id, d) := submit (QExt b blk) d in
      Some (ROk, mkM c (wait ordered id d) g)
  | OEnv ids => Some (ROk, mkM c (force_all ordered ids d) g)
  | ODestroy =>
      match destroy ordered wsize iter c d with
      | Some d => Some (RDisk (disk d), mkM c d g)
      | None => None
      end
  end.

(** a program and its results *)
Fixpoint m_run (p : list (op V)) (m : mach) : option (list (res V) * mach) :=
  match p with
  | [] => Some ([], m)
  | o :: p' =>
      match m_step o m with
      | None => None
      | Some (r, m) =>
          match m_run p' m with
          | None => None
          | Some (rs, m) => Some (r :: rs, m)
          end
      end
  end.

End Mach.

Arguments mach V : clear implicits.
