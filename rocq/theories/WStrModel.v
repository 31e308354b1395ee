(* The utility string class WRstr, wrench.h:1346-2085.
   A string is the in-object buffer m_smallbuf (16 bytes), the heap block m_str points to if it does
   not point to m_smallbuf, and the counters m_buflen and m_len.  Bytes are 0..255.  None is undefined
   behaviour: an access outside a block or to a freed one, or isspace/tolower of a negative char.
   Sizes are unbounded: 32-bit wrap-around of sums of string lengths is not modelled. *)
From Verif Require Import Base.

Record wstr := mkWS { sm : list Z; hp : option (list Z); bl : nat; ln : nat }.
Notation "x <- e ;; f" := (match e with Some x => f | None => None end) (at level 60, e at next level, right associativity).

Section WStr.
(* contents of freshly allocated memory *)
Variable junk : nat -> nat -> Z.
Definition fresh (n : nat) : list Z := map (junk n) (seq 0 n).

Definition BASE : nat := 15.                         (* c_sizeofBaseString *)
Definition blk (s : wstr) : list Z := match hp s with Some h => h | None => sm s end.   (* what m_str points to *)
Definition set_blk (s : wstr) (b : list Z) : wstr :=
  match hp s with Some _ => mkWS (sm s) (Some b) (bl s) (ln s) | None => mkWS b None (bl s) (ln s) end.
Definition set_ln (s : wstr) (n : nat) : wstr := mkWS (sm s) (hp s) (bl s) n.
(* n bytes read from, or [src] written to, a block *)
Definition rd (b : list Z) (off n : nat) : option (list Z) :=
  if (off + n <=? length b)%nat then Some (firstn n (skipn off b)) else None.
Definition blit (b : list Z) (off : nat) (src : list Z) : option (list Z) :=
  if (off + length src <=? length b)%nat then Some (firstn off b ++ src ++ skipn (off + length src) b) else None.
Definition write (s : wstr) (off : nat) (src : list Z) : option wstr := b <- blit (blk s) off src ;; Some (set_blk s b).

(* wrench.h:1349 WRstr(); the other constructors are set() on this one *)
Definition s_new (small : list Z) : option wstr :=
  b <- blit small 0 [0] ;; Some (mkWS b None BASE 0).
(* wrench.h:1364 *)
Definition s_clear (s : wstr) : option wstr := s' <- write s 0 [0] ;; Some (set_ln s' 0).
(* wrench.h:1756-1776; the contents are always preserved by the callers modelled here *)
Definition s_alloc (chars : nat) (s : wstr) : option wstr :=
  if (bl s <=? chars)%nat then
    old <- rd (blk s) 0 (bl s) ;;
    b <- blit (fresh (chars + 1)) 0 old ;;
    Some (mkWS (sm s) (Some b) chars (ln s))
  else Some s.
(* where the bytes to insert come from: elsewhere, or this string's own m_str (s.append(s)) *)
Inductive source := Ext (bs : list Z) | Own.
(* wrench.h:1957-1977.  The source pointer was taken before alloc: if alloc freed that block the
   copy reads freed memory.  Overlapping memcpy is not an issue for the uses modelled (pos >= m_len). *)
Definition s_insert (src : source) (pos : nat) (s : wstr) : option wstr :=
  let len := match src with Ext bs => length bs | Own => ln s end in
  if (len =? 0)%nat then Some s
  else
    s1 <- s_alloc (ln s + len + pos) s ;;
    s2 <- (if (pos <? ln s)%nat then tail <- rd (blk s1) pos (ln s) ;; write s1 (len + pos) tail else Some s1) ;;
    bs <- (match src with
           | Ext bs => Some bs
           | Own => match hp s, (bl s <=? ln s + len + pos)%nat with
                    | Some _, true => None                       (* freed by alloc *)
                    | Some _, false => rd (blk s2) 0 len
                    | None, _ => rd (sm s2) 0 len
                    end
           end) ;;
    s3 <- write s2 pos bs ;;
    s4 <- write s3 (ln s + len) [0] ;;
    Some (set_ln s4 (ln s + len)).
(* wrench.h:1427 *)
Definition s_append (src : source) (s : wstr) : option wstr := s_insert src (ln s) s.
(* wrench.h:1411 *)
Definition s_set (bs : list Z) (s : wstr) : option wstr := s1 <- write (set_ln s 0) 0 [0] ;; s_insert (Ext bs) 0 s1.
(* wrench.h:1980-1991 *)
Definition s_append_char (c : Z) (s : wstr) : option wstr :=
  s1 <- (if (bl s <=? ln s + 1)%nat then s_alloc (ln s * 3 / 2 + 1) s else Some s) ;;
  s2 <- write s1 (ln s) [c] ;;
  s3 <- write s2 (ln s + 1) [0] ;;
  Some (set_ln s3 (ln s + 1)).
(* wrench.h:1392 *)
Definition s_setsize (n : nat) (s : wstr) : option wstr :=
  s1 <- s_alloc n s ;; s2 <- write (set_ln s1 n) n [0] ;; Some s2.
(* wrench.h:1779-1803 *)
Definition s_truncate (n : nat) (s : wstr) : option wstr :=
  if (ln s <=? n)%nat then Some s
  else
    s1 <- (if (n <? BASE)%nat then
             match hp s with
             | Some h => b <- rd h 0 n ;; sm' <- blit (sm s) 0 b ;; Some (mkWS sm' None BASE (ln s))
             | None => Some s
             end
           else Some s) ;;
    s2 <- write s1 n [0] ;;
    Some (set_ln s2 n).
(* wrench.h:1398 *)
Definition s_shave (e : nat) (s : wstr) : option wstr := if (ln s <? e)%nat then s_clear s else s_truncate (ln s - e) s.
(* wrench.h:1806-1818 *)
Definition s_shift (from : nat) (s : wstr) : option wstr :=
  if (ln s <=? from)%nat then s_clear s
  else let n := (ln s - from)%nat in
       b <- rd (blk s) from (n + 1) ;; s1 <- write s 0 b ;; Some (set_ln s1 n).
(* isspace( (char)c ): defined for 0..127 *)
Definition isspace (c : Z) : option bool :=
  if (c <? 0) || (127 <? c) then None else Some ((c =? 32) || ((9 <=? c) && (c <=? 13))).
(* wrench.h:1717-1753 *)
Fixpoint skip_space (b : list Z) (n : nat) : option nat :=   (* leading white space among n bytes *)
  match n with
  | O => Some O
  | S k => match b with
           | [] => None
           | c :: r => sp <- isspace c ;; if sp then m <- skip_space r k ;; Some (S m) else Some O
           end
  end.
Fixpoint copy_down (n : nat) (start pos marker : nat) (b : list Z) : option (list Z * nat) :=
  match n with
  | O => Some (b, marker)
  | S k =>
    c <- nth_error b start ;;
    sp <- isspace c ;;
    copy_down k (S start) (S pos) (if sp then marker else pos) (upd b pos c)
  end.
Definition s_trim (s : wstr) : option wstr :=
  start <- skip_space (blk s) (ln s) ;;
  if (start =? ln s)%nat then s_clear s
  else
    r <- copy_down (ln s - start) start 0 start (blk s) ;;
    let '(b, marker) := r in
    s1 <- write (set_blk s b) (marker + 1) [0] ;;
    Some (set_ln s1 (marker + 1)).
(* wrench.h:1821-1830 substr( begin, len ): a new string *)
Definition s_substr (small : list Z) (begin len : nat) (s : wstr) : option wstr :=
  r <- s_new small ;;
  if (begin <? ln s)%nat then
    let amount := if (ln s <? begin + len)%nat then (ln s - begin)%nat else len in
    bs <- rd (blk s) begin amount ;; s_set bs r
  else Some r.
(* wrench.h:1641-1665 release: the block handed out (None for the empty string) and its length *)
Definition s_release (s : wstr) : option (wstr * option (list Z) * nat) :=
  if (ln s =? 0)%nat then s1 <- write (set_ln s 0) 0 [0] ;; Some (s1, None, 0%nat)
  else match hp s with
       | None => b <- rd (sm s) 0 (ln s + 1) ;; s1 <- write (set_ln s 0) 0 [0] ;; Some (s1, Some b, ln s)
       | Some h => s1 <- write (mkWS (sm s) None BASE 0) 0 [0] ;; Some (s1, Some h, ln s)
       end.
(* wrench.h:1668-1698 giveOwnership( buf, len ); buf is a heap block *)
Definition s_give (buf : list Z) (len : nat) (s : wstr) : option wstr :=
  if (len =? 0)%nat then s_clear s
  else if (len <? BASE)%nat then
    b <- rd buf 0 len ;; sm' <- blit (sm s) 0 b ;; s1 <- write (mkWS sm' None len len) len [0] ;; Some s1
  else write (mkWS (sm s) (Some buf) len len) len [0].

(* ---- looking ---- *)
(* wrench.h:1498-1529 find( str, from ): [str] is a C string given without its terminator; the inner loop at
   position f.  true/false: match or not; None of the inner option: the terminator was hit, give up. *)
Inductive cmp := CMatch | CDiffer | CEnd.
Fixpoint match_at (str b : list Z) : option cmp :=
  match str with
  | [] => Some CMatch
  | x :: r => match b with
              | [] => None
              | c :: b' => if c =? 0 then Some CEnd else if x =? c then match_at r b' else Some CDiffer
              end
  end.
Fixpoint find_loop (str : list Z) (n f : nat) (b : list Z) : option (option nat) :=
  match n with
  | O => Some None
  | S k => r <- match_at str (skipn f b) ;;
           match r with CMatch => Some (Some f) | CEnd => Some None | CDiffer => find_loop str k (S f) b end
  end.
Definition s_find (str : list Z) (from : nat) (s : wstr) : option (option nat) :=
  let f := if (ln s <? from)%nat then O else from in
  match str with [] => Some (Some O) | _ => find_loop str (ln s - f) f (blk s) end.
(* wrench.h:1469-1495 rfind( str, from ) *)
Fixpoint rmatch_at (str b : list Z) : option bool :=
  match str with
  | [] => Some true
  | x :: r => match b with [] => None | c :: b' => if x =? c then rmatch_at r b' else Some false end
  end.
Fixpoint rfind_loop (str : list Z) (f : nat) (b : list Z) : option (option nat) :=
  r <- rmatch_at str (skipn f b) ;;
  if r then Some (Some f) else match f with O => Some None | S k => rfind_loop str k b end.
Definition s_rfind (str : list Z) (from : nat) (s : wstr) : option (option nat) :=
  match str with [] => Some (Some O) | _ => rfind_loop str (if (ln s <? from)%nat then ln s else from) (blk s) end.
(* wrench.h:1449 operator==: strncmp stops at a terminator in both *)
Fixpoint strncmp_eq (n : nat) (a b : list Z) : option bool :=
  match n with
  | O => Some true
  | S k => match a, b with
           | x :: a', y :: b' => if x =? y then if x =? 0 then Some true else strncmp_eq k a' b' else Some false
           | _, _ => None
           end
  end.
Definition s_eq (s t : wstr) : option bool :=
  if (ln s =? ln t)%nat then strncmp_eq (ln s) (blk s) (blk t) else Some false.
End WStr.

(* wrench.h:1833-1892 isWildMatch( pattern, haystack ): both without their terminators.  [after] is the
   pattern after the last '*'. *)
Definition STAR : Z := 42.
Fixpoint all_stars (p : list Z) : bool := match p with [] => true | w :: r => (w =? STAR) && all_stars r end.
Fixpoint wild_loop (h : list Z) (p : list Z) (after : option (list Z)) {struct h} : bool :=
  match h with
  | [] => all_stars p
  | t :: r =>
    let retry :=
      fun after => match after with
      | None => false
      | Some [] => true
      | Some ((w :: p') as a) => if t =? w then wild_loop r p' after else wild_loop r a after
      end in
    (fix stars (p : list Z) (after : option (list Z)) : bool :=
      match p with
      | [] => retry after
      | w :: p' => if t =? w then wild_loop r p' after
                   else if w =? STAR then stars p' (Some p')
                   else retry after
      end) p after
  end.
Definition wild_match (pattern haystack : list Z) : bool :=
  match pattern with [] => match haystack with [] => true | _ => false end | _ => wild_loop haystack pattern None end.
