(** Derivatives of AC injections, branch flows and currents: dSbus_dV.py, dSbr_dV.py, dIbr_dV.py,
    dAbr_dV.py, d2Sbus_dV2.py, d2Sbr_dV2.py, d2Ibr_dV2.py, d2ASbr_dV2.py, d2AIbr_dV2.py (sparse
    branches; the dense branches of the first three compute the same entries).  numpy's abs of a
    complex number is the parameter [cabs]. *)
From Verif Require Export Model.AcNet.

Section Derivs.
Context {K : Type} {F : Fld K}.
Variable cabs : cpx K -> K.
Local Open Scope nat_scope.

Definition cmat := smat (cpx K).
Definition cvec := list (cpx K).
Definition jj : cpx K := Cx 0%K 1%K.
Definition conjm (M : cmat) : cmat := mapm conj M.
Definition scalem (c : cpx K) (M : cmat) : cmat := mapm (cmul c) M.
Definition negm (M : cmat) : cmat := mapm copp M.
Definition subm (A B : cmat) : result cmat := addm A (negm B).
Definition getH (M : cmat) : cmat := conjm (transp M).
Definition realm (M : cmat) : smat K := mapm re M.
Definition imagm (M : cmat) : smat K := mapm im M.
Definition twice (M : smat K) : smat K := mapm (rmul (fofZ 2)) M.

(** V / abs(V) and 1 / abs(V) *)
Definition vnorm (V : cvec) : result cvec := cvdiv V (map (fun z => ofK (cabs z)) V).
Definition inv_abs (V : cvec) : result cvec :=
  cvdiv (map (fun _ => ofK 1%K) V) (map (fun z => ofK (cabs z)) V).

(** dSbus_dV.py:12-71 *)
Definition dSbus_dV (Ybus : cmat) (V : cvec) : result (cmat * cmat) :=
  Ibus <- mulv Ybus V ;;
  diagV <- diagm V ;;
  diagIbus <- diagm Ibus ;;
  Vn <- vnorm V ;;
  diagVnorm <- diagm Vn ;;
  a <- mulm Ybus diagVnorm ;;
  b <- mulm diagV (conjm a) ;;
  c <- mulm (conjm diagIbus) diagVnorm ;;
  dS_dVm <- addm b c ;;
  d <- mulm Ybus diagV ;;
  e <- subm diagIbus d ;;
  dS_dVa <- mulm (scalem jj diagV) (conjm e) ;;
  Ok (dS_dVm, dS_dVa).

(** one end of dSbr_dV.py:13-131: [f] bus positions of that end, [Yf] its admittances *)
Definition dSend_dV (f : list nat) (Yf : cmat) (V Vn : cvec) : result (cmat * cmat * cvec) :=
  let nl := length f in let nb := length V in
  If <- mulv Yf V ;;
  Vf <- gather V f ;;
  Vnf <- gather Vn f ;;
  diagVf <- diagm Vf ;;
  diagIf <- diagm If ;;
  diagV <- diagm V ;;
  diagVnorm <- diagm Vn ;;
  SV <- sparse Vf (seq 0 nl) f nl nb ;;
  SVn <- sparse Vnf (seq 0 nl) f nl nb ;;
  a <- mulm (conjm diagIf) SV ;;
  b <- mulm Yf diagV ;;
  c <- mulm diagVf (conjm b) ;;
  d <- subm a c ;;
  e <- mulm Yf diagVnorm ;;
  g <- mulm diagVf (conjm e) ;;
  h <- mulm (conjm diagIf) SVn ;;
  dVm <- addm g h ;;
  Sf <- ewise (fun v i => cmul v (conj i)) Vf If ;;
  Ok (scalem jj d, dVm, Sf).

Definition dSbr_dV (branch : list (list K)) (Yf Yt : cmat) (V : cvec)
  : result (cmat * cmat * cmat * cmat * cvec * cvec) :=
  f <- idxcol OutOfModel F_BUS branch ;;
  t <- idxcol OutOfModel T_BUS branch ;;
  Vn <- vnorm V ;;
  '(fa, fm, Sf) <- dSend_dV f Yf V Vn ;;
  '(ta, tm, St) <- dSend_dV t Yt V Vn ;;
  Ok (fa, fm, ta, tm, Sf, St).

(** dIbr_dV.py:12-62 *)
Definition dIend_dV (Yf : cmat) (V Vn : cvec) : result (cmat * cmat * cvec) :=
  diagV <- diagm V ;;
  diagVnorm <- diagm Vn ;;
  a <- mulm (scalem jj Yf) diagV ;;
  b <- mulm Yf diagVnorm ;;
  If <- mulv Yf V ;;
  Ok (a, b, If).
Definition dIbr_dV (Yf Yt : cmat) (V : cvec) : result (cmat * cmat * cmat * cmat * cvec * cvec) :=
  Vn <- vnorm V ;;
  '(fa, fm, If) <- dIend_dV Yf V Vn ;;
  '(ta, tm, It) <- dIend_dV Yt V Vn ;;
  Ok (fa, fm, ta, tm, If, It).

(** dAbr_dV.py:11-74, one end and one kind of derivative at a time *)
Definition dAend (dS : cmat) (S : cvec) : result (smat K) :=
  dP <- diagm (map (fun s => fofZ 2 * re s)%K S) ;;
  dQ <- diagm (map (fun s => fofZ 2 * im s)%K S) ;;
  a <- mulm dP (realm dS) ;;
  b <- mulm dQ (imagm dS) ;;
  addm a b.
Definition dAbr_dV (fa fm ta tm : cmat) (Sf St : cvec)
  : result (smat K * smat K * smat K * smat K) :=
  a <- dAend fa Sf ;; b <- dAend ta St ;; c <- dAend fm Sf ;; d <- dAend tm St ;;
  Ok (a, c, b, d).

(** d2Sbus_dV2.py:12-50 *)
Definition d2Sbus_dV2 (Ybus : cmat) (V lam : cvec) : result (cmat * cmat * cmat * cmat) :=
  Ibus <- mulv Ybus V ;;
  diaglam <- diagm lam ;;
  diagV <- diagm V ;;
  lv <- ewise cmul lam V ;;
  A <- diagm lv ;;
  B <- mulm Ybus diagV ;;
  C <- mulm A (conjm B) ;;
  D <- mulm (getH Ybus) diagV ;;
  Dl <- mulm D diaglam ;;
  Dlam <- mulv D lam ;;
  dD <- diagm Dlam ;;
  x <- subm Dl dD ;;
  E <- mulm (conjm diagV) x ;;
  dI <- diagm (map conj Ibus) ;;
  y <- mulm A dI ;;
  Fm <- subm C y ;;
  g <- inv_abs V ;;
  G <- diagm g ;;
  Gaa <- addm E Fm ;;
  z <- subm E Fm ;;
  Gva <- mulm (scalem jj G) z ;;
  cc <- addm C (transp C) ;;
  w <- mulm G cc ;;
  Gvv <- mulm w G ;;
  Ok (Gaa, transp Gva, Gva, Gvv).

(** d2Sbr_dV2.py:12-51 *)
Definition d2Sbr_dV2 (Cbr Ybr : cmat) (V lam : cvec) : result (cmat * cmat * cmat * cmat) :=
  diaglam <- diagm lam ;;
  diagV <- diagm V ;;
  a0 <- mulm (getH Ybr) diaglam ;;
  A <- mulm a0 Cbr ;;
  b0 <- mulm (conjm diagV) A ;;
  B <- mulm b0 diagV ;;
  AV <- mulv A V ;;
  d0 <- ewise cmul AV (map conj V) ;;
  D <- diagm d0 ;;
  ATV <- mulv (transp A) (map conj V) ;;
  e0 <- ewise cmul ATV V ;;
  E <- diagm e0 ;;
  Fm <- addm B (transp B) ;;
  g <- inv_abs V ;;
  G <- diagm g ;;
  h1 <- subm Fm D ;;
  Haa <- subm h1 E ;;
  h2 <- subm B (transp B) ;;
  h3 <- subm h2 D ;;
  h4 <- addm h3 E ;;
  Hva <- mulm (scalem jj G) h4 ;;
  h5 <- mulm G Fm ;;
  Hvv <- mulm h5 G ;;
  Ok (Haa, transp Hva, Hva, Hvv).

(** d2Ibr_dV2.py:12-40 *)
Definition d2Ibr_dV2 (Ybr : cmat) (V lam : cvec) : result (cmat * cmat * cmat * cmat) :=
  let nb := length V in
  g <- inv_abs V ;;
  dinv <- diagm g ;;
  yl <- mulv (transp Ybr) lam ;;
  h <- ewise cmul (map copp yl) V ;;
  Haa <- diagm h ;;
  Hva <- mulm (scalem (copp jj) Haa) dinv ;;
  Ok (Haa, Hva, Hva, SM nb nb []).

(** 2 * (S + X.T * diag(lam) * conj(Y)).real *)
Definition sq_term (S X Y dl : cmat) : result (smat K) :=
  a <- mulm (transp X) dl ;;
  b <- mulm a (conjm Y) ;;
  c <- addm S b ;;
  Ok (twice (realm c)).

(** d2ASbr_dV2.py:13-48 *)
Definition d2ASbr_dV2 (dVa dVm : cmat) (Sbr : cvec) (Cbr Ybr : cmat) (V lam : cvec)
  : result (smat K * smat K * smat K * smat K) :=
  dl <- diagm lam ;;
  dS <- diagm (map conj Sbr) ;;
  sl <- mulv dS lam ;;
  '(Saa, Sav, Sva, Svv) <- d2Sbr_dV2 Cbr Ybr V sl ;;
  Haa <- sq_term Saa dVa dVa dl ;;
  Hva <- sq_term Sva dVm dVa dl ;;
  Hav <- sq_term Sav dVa dVm dl ;;
  Hvv <- sq_term Svv dVm dVm dl ;;
  Ok (Haa, Hav, Hva, Hvv).

(** d2AIbr_dV2.py:13-48 *)
Definition d2AIbr_dV2 (dVa dVm : cmat) (Ibr : cvec) (Ybr : cmat) (V lam : cvec)
  : result (smat K * smat K * smat K * smat K) :=
  dl <- diagm lam ;;
  dI <- diagm (map conj Ibr) ;;
  il <- mulv dI lam ;;
  '(Iaa, Iav, Iva, Ivv) <- d2Ibr_dV2 Ybr V il ;;
  Haa <- sq_term Iaa dVa dVa dl ;;
  Hva <- sq_term Iva dVm dVa dl ;;
  Hav <- sq_term Iav dVa dVm dl ;;
  Hvv <- sq_term Ivv dVm dVm dl ;;
  Ok (Haa, Hav, Hva, Hvv).
End Derivs.
