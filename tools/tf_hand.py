HAND={}
def H(n,text,extra=''): HAND[n]=(text,extra)
NE="  _ ← rassert (bool_decide (x <> []));\n"
def sumf(n,e,assertion='',extra=''):
    H(n,"Definition %s (x : list T) : outcome T :=\n%s  Ok (foldl (fun res arg => res + %s) (# 0) x)."%(n,assertion,e),extra)
def vars(k): return '  '+' '.join('x%d ← index x %d;'%(i+1,i) for i in range(k))+'\n'
def dim(k): return '  _ ← rassert (bool_decide (length x = %d));\n'%k
def sumi(n,k,lo,cnt,e,extra=''):
    H(n,"Definition %s (x : list T) : outcome T :=\n%s%s  Ok (foldl (fun res i => res + %s) (# 0) (seq %d %d))."%(n,dim(k),vars(k),e,lo,cnt),extra)
H('ackley',"""Definition ackley (x : list T) : outcome T :=
"""+NE+"""  let '(temp1, temp2) := foldl (fun t x_curr => (t.1 + {{f64::powi(*x_curr, 2)}}, t.2 + {{f64::cos(2.0 * f64::consts::PI * *x_curr)}})) (# 0, # 0) x in
  let temp1 := temp1 * ({{1.0 / x.len() as f64}}) in
  let temp2 := temp2 * ({{1.0 / x.len() as f64}}) in
  Ok ({{-20.0 * f64::exp(-0.2 * f64::sqrt(temp1)) - f64::exp(temp2) + 20.0 + f64::exp(1.0)}}).""")
sumf('alpine','{{f64::abs(arg * f64::sin(*arg) + arg / 10_f64)}}')
H('alpine2',"""Definition alpine2 (x : list T) : outcome T :=
  Ok (foldl (fun res arg => res * ({{f64::sqrt(*arg) * f64::sin(*arg)}})) (# 0) x).""")
H('brad',"""Definition brad (x : list T) : outcome T :=
"""+dim(3)+vars(3)+"""  let y0 := lit 14 100 in
  Ok (foldl (fun res i => res + powi ((y0 - x1 - of_nat i) / ({{(16 - i) as f64 * x2 + f64::min(i as f64, (16 - i) as f64) * x3}})) 2) (# 0) (seq 0 15)).""",": only y[0] = 0.14 of the table y is used")
sumi('biggs_exp2',2,1,10,"""powi ({{f64::powf(f64::consts::E, -0.1 * i as f64 * x1)
                - 5_f64 * f64::powf(f64::consts::E, -0.1 * i as f64 * x2)
                - f64::powf(f64::consts::E, -0.1 * i as f64)
                - 5_f64 * f64::powf(f64::consts::E, i as f64)}}) 2""")
sumi('biggs_exp3',3,1,10,"""powi ({{f64::powf(f64::consts::E, -0.1 * i as f64 * x1)
                - x3 * f64::powf(f64::consts::E, -0.1 * i as f64 * x2)
                - f64::powf(f64::consts::E, -0.1 * i as f64)
                - 5_f64 * f64::powf(f64::consts::E, i as f64)}}) 2""")
sumi('biggs_exp4',4,1,10,"""powi ({{x3 * f64::powf(f64::consts::E, -0.1 * i as f64 * x1)
                - x4 * f64::powf(f64::consts::E, -0.1 * i as f64 * x2)
                - f64::powf(f64::consts::E, -0.1 * i as f64)
                - 5_f64 * f64::powf(f64::consts::E, i as f64)}}) 2""")
sumi('biggs_exp5',5,1,10,"""powi ({{x3 * f64::powf(f64::consts::E, -0.1 * i as f64 * x1)
                - x4 * f64::powf(f64::consts::E, -0.1 * i as f64 * x2)
                - f64::powf(f64::consts::E, -0.1 * i as f64)
                - 5_f64 * f64::powf(f64::consts::E, i as f64 + 3_f64 * f64::powf(f64::consts::E, -0.1 * x5),)
                + 3_f64 * f64::powf(f64::consts::E, -0.4 * i as f64)}}) 2""")
sumi('biggs_exp6',6,1,11,"""powi ({{x3 * f64::powf(f64::consts::E, -0.1 * i as f64 * x1)
                - x4 * f64::powf(f64::consts::E, -0.1 * i as f64 * x2)
                - f64::powf(f64::consts::E, -0.1 * i as f64)
                - 5_f64 * f64::powf(f64::consts::E, i as f64 + x6 * f64::powf(f64::consts::E, -0.1 * x5),)
                + 3_f64 * f64::powf(f64::consts::E, -0.4 * i as f64)}}) 2""")
sumi('box_betts',3,0,3,"""powi ({{f64::powf(f64::consts::E, -0.1 * (i + 1) as f64 * x1)
                + f64::powf(f64::consts::E, -0.1 * (i + 1) as f64 * x2)
                + f64::powf(f64::consts::E, x3 * (-0.1 * i as f64) - f64::powf(f64::consts::E, -1_f64 * (i + 1) as f64),)}}) 2""")
H('branin',"""Definition branin (x : list T) (a b c r s t : T) : outcome T :=
"""+dim(2)+vars(2)+"""  Ok ({{a * f64::powi(x2 - b * f64::powi(x1, 2) + c * x1 - r, 2) + s * (1_f64 - t) * f64::cos(x1) + s}}).""")
H('branin_default',"""Definition branin_default (x : list T) : outcome T :=
"""+dim(2)+"""  let a := {{1_f64}} in
  let b := {{5.1 / 4_f64 * f64::powi(f64::consts::PI, 2)}} in
  let c := {{5_f64 / f64::consts::PI}} in
  let r := {{6_f64}} in
  let s := {{10_f64}} in
  let t := {{1_f64 / 8_f64 * f64::consts::PI}} in
"""+vars(2)+"""  Ok ({{a * f64::powi(x2 - b * f64::powi(x1, 2) + c * x1 - r, 2) + s * (1_f64 - t) * f64::cos(x1) + s}}).""")
H('brown',"""Definition brown (x : list T) : outcome T :=
"""+NE+"""  ofold (fun res i => xi ← index x i; xj ← index x (i + 1);
    Ok (res + (npowf (powi xi 2) (powi xj 2 + # 1) + npowf (powi xj 2) (powi xi 2 + # 1)))) (# 0) (seq 0 (length x - 1)).""",": xi = x[i], xj = x[i + 1]; for an empty x the subtraction (or, without overflow checks, x[0]) panics")
H('chung_reynolds',"""Definition chung_reynolds (x : list T) : outcome T :=
  let res := foldl (fun res arg => res + {{f64::powi(*arg, 2)}}) (# 0) x in Ok ({{f64::powi(res, 2)}}).""")
H('cosine_mixture',"""Definition cosine_mixture (x : list T) : outcome T :=
  let '(sum1, sum2) := foldl (fun t arg => (t.1 + {{f64::cos(5_f64 * f64::consts::PI * arg)}}, t.2 + {{f64::powi(*arg, 2)}})) (# 0, # 0) x in
  Ok ({{-0.1 * sum1 - sum2}}).""")
sumf('csendes','{{f64::powi(*arg, 6) * (2_f64 + f64::sin(1_f64 / arg))}}')
for n,e in (('deb1','{{f64::powi(f64::sin(5_f64 * f64::consts::PI * arg), 6)}}'),('deb3','powi ({{f64::sin(5_f64 * f64::consts::PI * (f64::powf(*arg, 0.75) - 0.05))}}) 6')):
    H(n,"""Definition %s (x : list T) : outcome T :=
  let res := foldl (fun res arg => res + %s) (# 0) x in
"""%(n,e)+NE+"""  Ok ({{-1_f64 / (x.len() - 1) as f64 * res}}).""",": the subtraction panics for an empty x (with overflow checks)")
H('devilliers_glasser1',"""Definition devilliers_glasser1 (x : list T) : outcome T :=
"""+dim(2)+vars(4)+"""  Ok (foldl (fun res i => res + powi ({{x1 * f64::powf(x2, 0.1 * (i - 1) as f64) * f64::sin(x3 * 0.1 * (i - 1) as f64 + x4)
                - 60.137 * f64::powf(1.371, 0.1 * (i - 1) as f64 * f64::sin(3.112 * 0.1 * (i - 1) as f64 + 1.761),)}}) 2) (# 0) (seq 1 24)).""")
sumi('devilliers_glasser2',5,1,24,"""powi ({{x1 * f64::powf(x2, 0.1 * (i - 1) as f64)
                * f64::tanh(x3 * 0.1 * (i - 1) as f64 + f64::sin(x4 * 0.1 * (i - 1) as f64))
                * f64::cos(0.1 * (i - 1) as f64 * f64::powf(f64::consts::E, x5))
                - 53.81 * f64::powf(1.27, 0.1 * (i - 1) as f64)
                * f64::tanh(3.012 * 0.1 * (i - 1) as f64 + f64::sin(2.13 * 0.1 * (i - 1) as f64))
                * f64::cos(f64::powf(f64::consts::E, 0.507) * 0.1 * (i - 1) as f64)}}) 2""")
H('dixon_price',"""Definition dixon_price (x : list T) : outcome T :=
  _ ← rassert (bool_decide (2 <= length x)%nat);
  x0 ← index x 0;
  ofold (fun result i => xi ← index x i; xp ← index x (i - 1);
    Ok (result + of_nat i * powi (# 2 * powi xi 2 - xp) 2)) ({{f64::powi(x0 - 1.0, 2)}}) (seq 1 (length x - 1)).""".replace('{{f64::powi(x0 - 1.0, 2)}}','powi (x0 - # 1) 2'),": xi = x[i], xp = x[i - 1]")
H('de_jong_n5',"""Definition de_jong_n5 (x : list T) : outcome T :=
"""+dim(2)+vars(2)+"""  let a1 := concat (repeat [- # 32; - # 16; # 16; # 32] 5) in
  let b := concat (map (fun v => repeat v 5) [- # 32; - # 16; # 0; # 16; # 32]) in
  sum ← ofold (fun sum i => p ← index a1 i; q ← index b i;
    Ok (sum + (# 1 / of_nat i + powi (x1 - p) 6 + powi (x2 - q) 6))) (# 0) (seq 1 25);
  Ok ({{f64::powf(0.002 + sum, -1_f64)}}).""",": a[0] = a1 has 20 elements, a[1] = b has 25")
H('exponential',"""Definition exponential (x : list T) : outcome T :=
  let res := foldl (fun res arg => res + {{f64::powi(*arg, 2)}}) (# 0) x in Ok ({{-1_f64 * f64::exp(-0.5 * res)}}).""")
H('exp2',"""Definition exp2 (x : list T) : outcome T :=
"""+dim(2)+vars(2)+"""  Ok (foldl (fun res i => res + powi ({{f64::powf(f64::consts::E, -1_f64 * i as f64 * x1 / 10_f64) - 5_f64 * f64::powf(f64::consts::E, -1_f64 * i as f64 * x2 / 10_f64)}}
    - powi nE (Z.quot (- Z.of_nat i) 10) + # 5 * powi nE (- Z.of_nat i)) 2) (# 0) (seq 1 9)).""",": [-i / 10] is an integer division")
H('forrester_et_al',"""Definition forrester_et_al (x : T) : outcome T := Ok ({{f64::powi(6_f64 * x - 2_f64, 2) * f64::sin(12_f64 * x - 4_f64)}}).""")
sumf('giunta',"""({{f64::sin((16 / 15) as f64 * arg - 1_f64)
            + f64::powi((16 / 15) as f64 * arg - 1_f64, 2)
            + 0.02 * f64::sin(4_f64 * ((16 / 15) as f64 * arg - 1_f64))}})""",dim(2))
H('gramacy_lee',"""Definition gramacy_lee (x : T) : outcome T := Ok ({{f64::sin(10_f64 * f64::consts::PI * x) / 2_f64 * x + f64::powi(x - 1_f64, 4)}}).""")
H('griewank',"""Definition griewank (x : list T) : outcome T :=
"""+NE+"""  let '(temp1, temp2) := foldl (fun t '(index, x_curr) => (t.1 + {{f64::powi(*x_curr, 2) / 4000.0}}, t.2 * {{f64::cos(*x_curr / f64::sqrt((index + 1) as f64))}})) (# 0, # 1) (imap pair x) in
  Ok ({{temp1 - temp2 + 1.0}}).""")
H('gulf_research',"""Definition gulf_research (x : list T) : outcome T :=
"""+dim(99)+"""  x3 ← index x 2;
  Ok (foldl (fun res '(i, xi) => res + powi (nexp (- # 1 * npowf ({{25_f64 + f64::powf(-50_f64 * f64::ln(0.01 * i as f64), 1_f64 / 1.5)}}) x3 / xi)) 2) (# 0) (imap pair x)).""",": xi = x[i]")
def hart(n,k,a,p,fold,fin,extra):
    H(n,"""Definition %s (x : list T) : outcome T :=
"""%n+dim(k)+"""  let alfa := [# 1; lit 12 10; # 3; lit 32 10] in
  let a := [%s] in
  let p := [%s] in
  sum ← ofold (fun sum i =>
    inner ← ofold (fun inner '(j, xj) => ai ← index a i; aij ← index ai j; pi ← index p i; pij ← index pi j; Ok (inner + aij * powi (xj - pij) 2)) (# 0) (imap pair x);
    al ← index alfa i; Ok (%s)) (# 0) (seq 1 4);
  Ok (%s)."""%(a,p,fold,fin),extra)
def row(s): return '['+'; '.join(tr(v) for v in s.split())+']'
def mat(*rows): return ';\n    '.join(row(r) for r in rows)
A6=mat('10.0 3.0 17.0 3.5 1.7 8.0','0.05 10.0 17.0 0.1 8.0 14.0','3.0 3.5 1.7 10.0 17.0 8.0','17.0 8.0 0.05 10.0 0.1 14.0')
def P6(c): return mat('1.312 1.696 5.569 1.24 8.283 5.886','2.329 4.135 8.307 3.736 1.004 9.991','2.348 1.451 %s 2.883 3.047 6.650'%c,'4.047 8.828 8.732 5.743 1.091 3.81')
hart('hartmann_3d',3,mat('3.0 10.0 30.0','0.1 10.0 35.0','3.0 10.0 30.0','0.1 10.0 35.0'),mat('3.689 1.17 2.673','4.699 4.387 7.47','1.091 8.732 5.547','0.381 5.743 8.828'),'sum - al * nexp (- # 1 * inner)','sum',': i runs over 1, 2, 3, 4 while the arrays have four elements')
hart('hartmann_4d',4,A6,P6('3.522'),'sum + al * nexp (- inner)','# 1 / lit 839 1000 * (lit 11 10 - sum)',': i runs over 1, 2, 3, 4 while the arrays have four elements')
hart('hartmann_6d',6,A6,P6('0.522'),'sum + al * nexp (- # 1 * inner)','- # 1 * sum',': i runs over 1, 2, 3, 4 while the arrays have four elements')
sumi('jennrich_sampson',2,1,10,"""powi ({{2_f64 + 2_f64 * i as f64 - (f64::powf(f64::consts::E, i as f64 * x1) + f64::powf(f64::consts::E, i as f64 * x2))}}) 2""")
H('langermann',"""Definition langermann (x : list T) (m : nat) (c : list T) (a : list (list T)) : outcome T :=
  ofold (fun res i =>
    inner ← ofold (fun inner '(j, xj) => ai ← index a i; aij ← index ai j; Ok (inner + powi (xj - aij) 2)) (# 0) (imap pair x);
    ci ← index c i; Ok (res + ci * {{f64::exp(-1_f64 * f64::consts::PI / inner)}} * {{f64::cos(f64::consts::PI * inner)}})) (# 0) (seq 1 m).""",": m is an i32 there")
H('levy',"""Definition levy (x : list T) : outcome T :=
"""+NE+"""  x0 ← index x 0;
  let result := powi (nsin (npi * (# 1 + (x0 - # 1) / # 4))) 2 in
  let result := foldl (fun result x_i =>
      let temp := {{1.0 + (x_i - 1.0) / 4.0}} in
      result + {{f64::powi(temp - 1.0, 2) * (1.0 + 10.0 * f64::powi(f64::sin(f64::consts::PI * temp + 1.0), 2))}}) result (take (length x - 1) x) in
  xl ← index x (length x - 1);
  let temp := # 1 + (xl - # 1) / # 4 in
  Ok (result + {{f64::powi(temp - 1.0, 2) * (1.0 + f64::powi(f64::sin(2.0 * f64::consts::PI * temp), 2))}}).""",": x0 = x[0], xl = x[x.len() - 1]")
H('michalewicz',"""Definition michalewicz (x : list T) : outcome T :=
"""+NE+"""  Ok (foldl (fun result '(index, x_curr) => result - nsin x_curr * powi ({{f64::sin(((index + 1) as f64) * f64::powi(*x_curr, 2) / f64::consts::PI)}}) 20) (# 0) (imap pair x)).""")
H('pathological',"""Definition pathological (x : list T) : outcome T :=
  _ ← rassert (bool_decide (2 <= length x)%nat);
  ofold (fun res i => xi ← index x i; xj ← index x (i + 1);
    Ok (res + (lit 5 10 + (powi (nsin (nsqrt (# 100 * powi xi 2 + powi xj 2))) 2 - lit 5 10)
      / (# 1 + lit 1 1000 * powi (powi xi 2 - # 2 * xi * xj + powi xj 2) 2)))) (# 0) (seq 1 (length x - 3)).""",": xi = x[i], xj = x[i + 1]; [x.len() - 2] panics (or x[1] does) for fewer than two")
H('paviani',"""Definition paviani (x : list T) : outcome T :=
"""+dim(10)+"""  let '(res, sum) := foldl (fun t arg => (t.1 + ({{f64::powi(f64::ln(arg - 2_f64), 2) + f64::powi(f64::ln(10_f64 - arg), 2)}}), t.2 * arg)) (# 0, # 0) x in
  Ok ({{res - f64::powf(sum, 0.2)}}).""")
H('pinter',"""Definition pinter (x : list T) : outcome T :=
  ofold (fun res '(i, val) =>
    _ ← rassert (bool_decide (i <> 0%nat));
    xp ← index x (i - 1); xn ← index x (i + 1);
    Ok (res + (of_nat i * powi val 2 + # 20 * of_nat i * powi (nsin (xp * nsin val + nsin xn)) 2
      + of_nat i * nlog (# 1 + of_nat i * powi (powi xp 2 - # 2 * val - # 3 * xp - ncos val + # 1) 2) (# 10)))) (# 0) (imap pair x).""",": xp = x[i - 1] (a panic for i = 0 either way), xn = x[i + 1]")
H('perm_0_d_beta',"""Definition perm_0_d_beta (x : list T) (beta : T) : outcome T :=
"""+dim(2)+"""  Ok (foldl (fun res i =>
    let sum := foldl (fun sum '(j, xj) => sum + ((of_nat j + beta) * powi xj (Z.of_nat i) - # 1 / powi (of_nat j) (Z.of_nat i))) (# 0) (imap pair x) in
    res + powi sum 2) (# 0) (seq 1 (length x))).""",": xj = x[j]")
H('perm_d_beta',"""Definition perm_d_beta (x : list T) (beta : T) : outcome T :=
  Ok (foldl (fun res i =>
    let sum := foldl (fun sum '(j, xj) => sum + (powi (of_nat j) (Z.of_nat i) + beta) * (powi (xj / of_nat j) (Z.of_nat i) - # 1)) (# 0) (imap pair x) in
    res + powi sum 2) (# 0) (seq 1 (length x))).""",": xj = x[j]")
H('powell',"""Definition powell (x : list T) : outcome T :=
  _ ← rassert (bool_decide (3 < length x)%nat);
  ofold (fun res i => a ← index x (4 * i - 3); b ← index x (4 * i - 2); c ← index x (4 * i - 1); d ← index x (4 * i);
    Ok (res + (powi (a + # 10 * b) 2 + # 5 * powi (c - d) 2 + powi (b - # 2 * c) 4 + # 10 * powi (a - d) 4))) (# 0) (seq 1 (length x / 4)).""",": a = x[4 * i - 3], b = x[4 * i - 2], c = x[4 * i - 1], d = x[4 * i]")
H('powell2',"""Definition powell2 (x : list T) : outcome T :=
  _ ← rassert (bool_decide (3 < length x)%nat);
  ofold (fun res i => a ← index x (i - 1); b ← index x i; c ← index x (i + 1); d ← index x (i + 2);
    Ok (res + (powi (a + # 10 * b) 2 + # 5 * powi (c - d) 2 + powi (b - # 2 * c) 4 + # 1 * powi (a - d) 4))) (# 0) (seq 1 (length x - 4)).""",": a = x[i - 1], b = x[i], c = x[i + 1], d = x[i + 2]")
H('powell_sum',"""Definition powell_sum (x : list T) : outcome T :=
  Ok (foldl (fun res '(dim, arg) => res + {{f64::powi(f64::abs(*arg), (dim + 1) as i32)}}) (# 0) (imap pair x)).""")
H('power_sum',"""Definition power_sum (x b : list T) : outcome T :=
  _ ← rassert (bool_decide (length b = length x));
  Ok (foldl (fun res '(i, bi) => res + powi (foldl (fun sum j => sum + {{f64::powi(*j, i as i32)}}) (# 0) x - bi) 2) (# 0) (imap pair b)).""",": bi = b[i]")
H('qing',"""Definition qing (x : list T) (i : T) : outcome T :=
  Ok (foldl (fun res arg => res + {{f64::powi(f64::powi(*arg, 2) - i, 2)}}) (# 0) x).""")
sumf('quintic',"""nabs ({{f64::powi(*arg, 5) - 3_f64 * f64::powi(*arg, 4) + 4_f64 * f64::powi(*arg, 3) + 2_f64 * f64::powi(*arg, 2) - 10_f64 * arg - 4_f64}})""")
H('rana',"""Definition rana (x : list T) : outcome T :=
  ofold (fun res '(dim, arg) => xn ← index x (dim + 1);
    let t1 := nsqrt (nabs (xn + arg + # 1)) in
    let t2 := nsqrt (nabs (xn - arg + # 1)) in
    Ok (res + ((xn + # 1) * ncos t2 * nsin t1 + arg * ncos t1 * nsin t2))) (# 0) (imap pair x).""",": xn = x[dim + 1]")
H('rastrigin',"""Definition rastrigin (x : list T) : outcome T :=
"""+NE+"""  Ok (foldl (fun result x_curr => result + ({{f64::powi(*x_curr, 2) - 10.0 * f64::cos(2.0 * f64::consts::PI * *x_curr)}})) (# 0) x + {{10.0 * x.len() as f64}}).""")
RIP="({{-1_f64 * f64::powf(f64::consts::E, -2_f64 * f64::ln(2_f64 * f64::powi((arg - 1_f64) / 0.8, 2)),) * (%s)}})"
sumf('ripple1',RIP%"f64::powi(f64::sin(5_f64 * f64::consts::PI * arg), 6) + 0.1 * f64::powi(f64::cos(500_f64 * f64::consts::PI * arg), 2)",dim(2))
sumf('ripple25',RIP%"f64::powi(f64::sin(5_f64 * f64::consts::PI * arg), 6)",dim(2))
H('rosenbrock',"""Definition rosenbrock (x : list T) : outcome T :=
  _ ← rassert (bool_decide (2 <= length x)%nat);
  ofold (fun result i => xi ← index x i; xj ← index x (i + 1);
    Ok (result + (# 100 * powi (xj - powi xi 2) 2 + powi (# 1 - xi) 2))) (# 0) (seq 0 (length x - 1)).""",": xi = x[i], xj = x[i + 1]")
H('rotated_hyper_ellipsoid',"""Definition rotated_hyper_ellipsoid (x : list T) : outcome T :=
"""+NE+"""  Ok (foldl (fun result i => foldl (fun result x_j => result + {{f64::powi(*x_j, 2)}}) result (take (i + 1) x)) (# 0) (seq 0 (length x))).""")
H('salomon',"""Definition salomon (x : list T) : outcome T :=
  let res := foldl (fun res arg => res + {{f64::powi(*arg, 2)}}) (# 0) x in
  Ok ({{1_f64 - f64::cos(2_f64 * f64::consts::PI * res) + 0.1 * f64::sqrt(res)}}).""")
H('sargan',"""Definition sargan (x : list T) : outcome T :=
  Ok (foldl (fun res '(dim, val) =>
    fst (foldl (fun t '(j, xj) =>
        let innersum := if decide (dim <> j) then t.2 + val * xj else t.2 in
        (t.1 + {{x.len() as f64 * (f64::powi(*val, 2) + 0.4 * innersum)}}, innersum)) (res, # 0) (imap pair x))) (# 0) (imap pair x)).""",": xj = x[j]; t = (res, innersum)")
sumf('schumer_steiglitz','{{f64::powi(*arg, 4)}}')
H('schwefel',"""Definition schwefel (x : list T) : outcome T :=
"""+NE+"""  Ok (foldl (fun result x_curr => result - {{*x_curr * f64::sin(f64::sqrt(f64::abs(*x_curr)))}}) ({{418.9829 * (x.len() as f64)}}) x).""")
H('shekel',"""Definition shekel (x : list T) (m : nat) (beta : list T) (c : list (list T)) : outcome T :=
"""+dim(4)+"""  c0 ← index c 0;
  _ ← rassert (bool_decide (length c0 = 4));
  _ ← rassert (bool_decide (length c = m));
  _ ← rassert (bool_decide (length beta = m));
  ofold (fun res i =>
    sum ← ofold (fun sum j => xj ← index x j; cj ← index c j; cjj ← index cj j; Ok (sum + powi (xj - cjj) 2)) (# 0) (seq 1 4);
    bi ← index beta i; Ok (res + powi (sum + bi) (-1))) (# 0) (seq 1 m).""",": m is an i32 there")
H('shekel_default',"""Definition shekel_default (x : list T) : outcome T :=
"""+dim(4)+"""  let beta := map (fun x => lit 1 10 * x) [# 1; # 2; # 2; # 4; # 4; # 6; # 3; # 7; # 5; # 5] in
  let c := [%s] in
  ofold (fun res i =>
    sum ← ofold (fun sum j => xj ← index x j; cj ← index c j; cjj ← index cj j; Ok (sum + powi (xj - cjj) 2)) (# 0) (seq 1 4);
    bi ← index beta i; Ok (res + powi (sum + bi) (-1))) (# 0) (seq 1 10)."""%mat(*(['4.0 1.0 8.0 6.0 3.0 2.0 5.0 8.0 6.0 7.0','4.0 1.0 8.0 6.0 7.0 9.0 3.0 1.0 2.0 3.6']*2)))
H('shubert',"""Definition shubert (x : list T) : outcome T :=
"""+dim(2)+vars(2)+"""  let '(y1, y2) := foldl (fun t i => (t.1 + {{i as f64 * f64::cos((i + 1) as f64 * x1 + i as f64)}}, t.2 + {{i as f64 * f64::cos((i + 1) as f64 * x2 + i as f64)}})) (# 0, # 0) (seq 1 5) in
  Ok (y1 * y2).""")
H('sphere',"""Definition sphere (x : list T) : outcome T :=
"""+NE+"""  Ok (foldl (fun result x_curr => result + {{f64::powi(*x_curr, 2)}}) (# 0) x).""")
H('styblinski_tang',"""Definition styblinski_tang (x : list T) : outcome T :=
"""+NE+"""  let result := foldl (fun result x_curr => result + ({{f64::powi(*x_curr, 4) - 16.0 * f64::powi(*x_curr, 2) + 5.0 * *x_curr}})) (# 0) x in
  Ok (result * {{0.5}}).""".replace('{{0.5}}','lit 5 10'))
H('stretched_v_sine_wave',"""Definition stretched_v_sine_wave (x : list T) : outcome T :=
"""+NE+"""  ofold (fun result '(i, x_curr) => xn ← index x (i + 1);
    Ok (result + npowf (powi xn 2 + powi x_curr 2) (lit 25 100)
      * (powi (nsin (# 50 * npowf (powi xn 2 + powi x_curr 2) (lit 1 10))) 2 + lit 1 10))) (# 0) (imap pair x).""",": xn = x[index + 1]")
H('sum_of_powers',"""Definition sum_of_powers (x : list T) : outcome T :=
"""+NE+"""  Ok (foldl (fun result '(index, x_curr) => result + {{f64::powi(f64::abs(*x_curr), (index + 1) as i32)}}) (# 0) (imap pair x)).""")
H('sum_squares',"""Definition sum_squares (x : list T) : outcome T :=
"""+NE+"""  Ok (foldl (fun result '(index, x_curr) => result + {{((index + 1) as f64) * f64::powi(*x_curr, 2)}}) (# 0) (imap pair x)).""")
H('trid',"""Definition trid (x : list T) : outcome T :=
  _ ← rassert (bool_decide (2 <= length x)%nat);
  x0 ← index x 0;
  ofold (fun result i => xi ← index x i; xp ← index x (i - 1);
    Ok (result + (powi (xi - # 1) 2 - xi * xp))) (powi (x0 - # 1) 2) (seq 1 (length x - 1)).""",": xi = x[i], xp = x[i - 1]")
H('trid10',"""Definition trid10 (x : list T) : outcome T :=
  _ ← rassert (bool_decide (2 <= length x)%nat);
  '(temp1, temp2) ← ofold (fun t '(dim, val) =>
    _ ← rassert (bool_decide (dim <> 0%nat)); xp ← index x (dim - 1);
    Ok (fst t + {{f64::powi(val - 1_f64, 2)}}, snd t + val * xp)) (# 0, # 0) (imap pair x);
  Ok ({{temp1 - temp2}}).""",": xp = x[dim - 1], a panic for dim = 0 either way")
H('trigonometric1',"""Definition trigonometric1 (x : list T) : outcome T :=
  _ ← rassert (bool_decide (2 <= length x)%nat);
  let sum := foldl (fun sum arg => sum + {{f64::cos(*arg)}}) (# 0) x in
  Ok (foldl (fun res '(dim, arg) => res + powi ({{x.len() as f64 - sum + dim as f64 * (1_f64 - f64::cos(*arg) - f64::sin(*arg))}}) 2) (# 0) (imap pair x)).""")
H('trigonometric2',"""Definition trigonometric2 (x : list T) : outcome T :=
  _ ← rassert (bool_decide (2 <= length x)%nat);
  x0 ← index x 0;
  let sum := foldl (fun sum arg => sum + {{f64::cos(*arg)}}) (# 0) x in
  let sum := foldl (fun sum arg => sum + ({{8_f64 * f64::powi(f64::sin(7_f64 * f64::powi(arg - 0.9, 2)), 2)}} + # 6 * powi (nsin (# 14 * powi (x0 - lit 9 10) 2)) 2 + {{f64::powi(arg - 0.9, 2)}})) sum x in
  Ok ({{1_f64 + sum}}).""",": x0 = x[0]")
H('wordmax',"""Definition wordmax (chromosome : list bool) : T := of_nat (length (filter (fun gene => gene = true) chromosome)).""")
H('xin_she_yang_2',"""Definition xin_she_yang_2 (x : list T) : outcome T :=
"""+NE+"""  let '(temp1, temp2) := foldl (fun t x_curr => (t.1 + {{f64::abs(*x_curr)}}, t.2 + {{f64::sin(f64::powi(*x_curr, 2))}})) (# 0, # 0) x in
  Ok ({{temp1 * f64::exp(-temp2)}}).""")
H('zakharov',"""Definition zakharov (x : list T) : outcome T :=
"""+NE+"""  let '(temp1, temp2) := foldl (fun t '(index, x_curr) => (t.1 + {{f64::powi(*x_curr, 2)}}, t.2 + {{0.5 * ((index + 1) as f64) * *x_curr}})) (# 0, # 0) (imap pair x) in
  Ok ({{temp1 + f64::powi(temp2, 2) + f64::powi(temp2, 4)}}).""")
