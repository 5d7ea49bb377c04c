-Q theories Verif
theories/Base.v
theories/BaseLemmas.v
theories/Bitfield_Model.v
theories/Bitfield_Spec.v
theories/Bitfield_Proofs.v
theories/Bitfield_Properties.v
theories/Crc_Model.v
theories/Crc_Spec.v
theories/Crc_Proofs.v
theories/Crc_Properties.v
theories/Tdl_Model.v
theories/Tdl_Spec.v
theories/Tdl_Proofs.v
theories/Tdl_Properties.v
theories/Algorithm_Model.v
theories/Algorithm_Spec.v
theories/Algorithm_Proofs.v
theories/Algorithm_Properties.v
theories/Fp16_Model.v
theories/Fp16_Spec.v
theories/Fp16_Proofs.v
theories/Fp16_Proofs2.v
theories/Fp16_Proofs3.v
theories/Fp16_Properties.v
theories/Arith.v
theories/ArithLemmas.v
theories/Ext32.v
theories/Numa_Model.v
theories/Numa_Spec.v
theories/Numa_Proofs.v
theories/Numa_Properties.v
theories/Pid_Model.v
theories/Pid_Spec.v
theories/Pid_Proofs.v
theories/Pid_Proofs2.v
theories/Pid_Proofs3.v
theories/Pid_Properties.v
theories/Ltisys_Model.v
theories/Ltisys_Spec.v
theories/Ltisys_Proofs.v
theories/Ltisys_Proofs2.v
theories/Ltisys_Proofs3.v
theories/Ltisys_Proofs4.v
theories/Ltisys_Properties.v
theories/Smoother_Model.v
theories/Smoother_Spec.v
theories/Smoother_Proofs.v
theories/Smoother_Proofs2.v
theories/Smoother_Proofs3.v
theories/Smoother_Proofs4.v
theories/Smoother_Proofs5.v
theories/Smoother_Properties.v
theories/Interp1_Model.v
theories/Interp1_Spec.v
theories/Interp1_Proofs.v
theories/Interp1_Proofs2.v
theories/Interp1_Proofs3.v
theories/Interp1_Properties.v
theories/Interp1_Proofs4.v
theories/Interp12_Properties.v
theories/Mat_Model.v
theories/Mat_Spec.v
theories/Mat_Proofs.v
theories/Mat_Proofs2.v
theories/Mat_Properties.v
theories/Rms_Model.v
theories/Rms_Spec.v
theories/Rms_Proofs.v
theories/Rms_Properties.v
theories/FisCore_Model.v
theories/Fis_Spec.v
theories/FisCore_Proofs.v
theories/FisCore_Proofs2.v
theories/FisCore_Properties.v
theories/FisRules_Spec.v
theories/Fis_Model.v
theories/FisSys_Spec.v
theories/Fis_Proofs.v
theories/Fis_Proofs2.v
theories/Fis_Proofs3.v
theories/Fis_Proofs4.v
theories/Fis_Proofs5.v
theories/Fis_Proofs6.v
theories/Fis_Proofs7.v
theories/Fis_Properties.v
theories/Bits32.v
theories/Ffmath_Model.v
theories/Ffmath_Spec.v
theories/Ffmath_Proofs.v
theories/Ffmath_Proofs2.v
theories/Ffmath_Proofs3.v
theories/Ffmath_Properties.v
theories/Float32.v
theories/Ffmath_Proofs4.v
theories/Ffmath_Proofs5.v
theories/Ffmath_Proofs6.v
theories/Ffmath_Proofs7.v
theories/Ffmath_Proofs8.v
theories/Ffmath2_Properties.v
theories/Ffmath_Proofs9.v
theories/Ffmath_Proofs10.v
theories/Ffmath2_Model.v
theories/Ffmath_Proofs11.v
theories/Ffmath3_Properties.v
theories/PolyBound.v
theories/FloatApp.v
theories/Ffmath_Proofs12.v
theories/Ffmath_Proofs13.v
theories/Ffmath4_Properties.v
theories/Ffmath_Proofs14.v
theories/Ffmath_Proofs15.v
theories/Ffmath5_Properties.v
theories/Poly_Model.v
theories/Poly_Spec.v
theories/Poly_Proofs.v
theories/Poly_Proofs2.v
theories/Poly_Properties.v
theories/Ffmath3_Model.v
theories/Ffmath_Proofs16.v
theories/Ffmath6_Properties.v
theories/TrigBound.v
theories/Ffmath_Proofs17.v
theories/Ffmath_Proofs18.v
theories/Ffmath_Proofs19.v
theories/Ffmath7_Properties.v
theories/Ffmath_Proofs20.v
theories/Ffmath_Proofs21.v
theories/Ffmath8_Properties.v
theories/Fp16Conv_Model.v
theories/Fp16Conv_Proofs.v
theories/Fp16Conv_Proofs2.v
theories/Fp16Conv_Properties.v
theories/Ffmath4_Model.v
theories/Ellint_Spec.v
theories/Ellint_Proofs.v
theories/Ellint_Proofs2.v
theories/Ellint_Proofs3.v
theories/Ellint_Proofs4.v
theories/Ellint_Proofs5.v
theories/Ellint_Proofs6.v
theories/Ellint_Properties.v
theories/Expint_Spec.v
theories/Expint_Proofs.v
theories/Expint_Proofs2.v
theories/Expint_Proofs3.v
theories/Expint_Proofs4.v
theories/Expint_Proofs5.v
theories/Expint_Proofs6.v
theories/Expint_Proofs7.v
theories/Expint_Proofs8.v
theories/Expint_Proofs9.v
theories/Expint_Properties.v
theories/Ffmath5_Model.v
theories/Bessel_Spec.v
theories/Bessel_Proofs.v
theories/Bessel_Proofs2.v
theories/Bessel_Proofs3.v
theories/Bessel_Proofs4.v
theories/Bessel_Proofs5.v
theories/Bessel_Properties.v
theories/SphLegendre_Model.v
theories/SphLegendre_Spec.v
theories/SphLegendre_Proofs.v
theories/SphLegendre_Properties.v
theories/Zeta_Spec.v
theories/Zeta_Proofs.v
theories/Zeta_Properties.v
theories/Fp16Fun_Spec.v
theories/Fp16Fun_Proofs.v
theories/Fp16Fun_Proofs2.v
theories/Fp16Fun_Proofs3.v
theories/Fp16Fun_Proofs4.v
theories/Fp16Fun_Proofs5.v
theories/Fp16Fun_Proofs6.v
theories/Fp16Fun_Properties.v
theories/Fp16Log_Proofs.v
theories/Fp16Log_Proofs2.v
theories/Fp16Log_Proofs3.v
theories/Fp16Log_Properties.v
theories/Fp16Atan_Proofs.v
theories/Fp16Atan_Proofs2.v
theories/Fp16Atan_Properties.v
theories/Fp16Pow_Spec.v
theories/Fp16Pow_Proofs.v
theories/Fp16Pow_Proofs2.v
theories/Fp16Pow_Properties.v
theories/Erf_Spec.v
theories/Erf_Proofs.v
theories/Erf_Properties.v
theories/Fp16Expr_Model.v
theories/Fp16Expr_Spec.v
theories/Fp16Expr_Proofs.v
theories/Fp16Expr_Proofs2.v
theories/Fp16Expr_Properties.v
theories/Lowpass32_Proofs.v
theories/Lowpass32_Properties.v
theories/Fir32_Spec.v
theories/Fir32_Proofs.v
theories/Fir32_Proofs2.v
theories/Fir32_Proofs3.v
theories/Fir32_Properties.v
theories/Mean32_Spec.v
theories/Mean32_Proofs.v
theories/Mean32_Properties.v
theories/Numa32_Spec.v
theories/Numa32_Proofs.v
theories/Numa32_Properties.v
theories/Kalman32_Proofs.v
theories/Kalman32_Properties.v
theories/Deriv32_Spec.v
theories/Deriv32_Proofs.v
theories/Deriv32_Properties.v
theories/Expw32_Proofs.v
theories/Expw32_Properties.v
theories/Interp32_Proofs.v
theories/Interp32_Properties.v
theories/Step32_Proofs.v
theories/Step32_Properties.v
theories/Gauss32_Spec.v
theories/Gauss32_Proofs.v
theories/Gauss32_Properties.v
theories/Kernel32_Spec.v
theories/Kernel32_Proofs.v
theories/Kernel32_Properties.v
