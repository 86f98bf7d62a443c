-Q theories Verif
theories/Arr.v
theories/L_API.v
theories/L_Algebra.v
theories/L_Alt.v
theories/L_Argmax.v
theories/L_Arr.v
theories/L_Bits.v
theories/L_Bits2.v
theories/L_Chen.v
theories/L_Copy.v
theories/L_Cos.v
theories/L_Custom.v
theories/L_Dtype.v
theories/L_Ext.v
theories/L_Float.v
theories/L_Float2.v
theories/L_Float3.v
theories/L_Float4.v
theories/L_Fruit.v
theories/L_Fruit10.v
theories/L_Fruit11.v
theories/L_Fruit2.v
theories/L_Fruit3.v
theories/L_Fruit4.v
theories/L_Fruit5.v
theories/L_Fruit6.v
theories/L_Fruit7.v
theories/L_Fruit8.v
theories/L_Fruit9.v
theories/L_Gen.v
theories/L_General.v
theories/L_Homog.v
theories/L_ISS.v
theories/L_Max.v
theories/L_Mem.v
theories/L_Mem2.v
theories/L_Mem3.v
theories/L_Mem4.v
theories/L_Mem5.v
theories/L_Mem6.v
theories/L_Np.v
theories/L_Offset.v
theories/L_Offset2.v
theories/L_Par.v
theories/L_Plan.v
theories/L_Prep.v
theories/L_Prep2.v
theories/L_Prep3.v
theories/L_Prep4.v
theories/L_Quantile.v
theories/L_RComp.v
theories/L_Reals.v
theories/L_Rows.v
theories/L_Rowwise.v
theories/L_Rowwise2.v
theories/L_Rowwise3.v
theories/L_Rowwise4.v
theories/L_Rowwise5.v
theories/L_Rowwise6.v
theories/L_Scale.v
theories/L_Seeds.v
theories/L_Seeds2.v
theories/L_Seeds3.v
theories/L_Sieve.v
theories/L_Sieve2.v
theories/L_Single.v
theories/L_Slow.v
theories/L_Str.v
theories/L_Text.v
theories/L_Tuples.v
theories/L_Units.v
theories/L_Weight.v
theories/L_Word2.v
theories/L_WordObj.v
theories/L_Words.v
theories/M_Cache.v
theories/M_Cos.v
theories/M_Custom.v
theories/M_Dtype.v
theories/M_Float.v
theories/M_Fruit.v
theories/M_FruitIter.v
theories/M_IEEE.v
theories/M_ISS.v
theories/M_Live.v
theories/M_Mem.v
theories/M_Mem2.v
theories/M_Np.v
theories/M_Par.v
theories/M_Prep.v
theories/M_PrepObj.v
theories/M_PyEq.v
theories/M_Requires.v
theories/M_Seeds.v
theories/M_Semiring.v
theories/M_Sieve.v
theories/M_Str.v
theories/M_Summary.v
theories/M_WordObj.v
theories/M_Words.v
theories/Num.v
theories/P_Algebra.v
theories/P_Argmax.v
theories/P_Attach.v
theories/P_Cache.v
theories/P_Chen.v
theories/P_Copy.v
theories/P_Copy2.v
theories/P_Cos.v
theories/P_Crash.v
theories/P_Custom.v
theories/P_Dtype.v
theories/P_Float.v
theories/P_Fruit.v
theories/P_Fruit2.v
theories/P_Fruit3.v
theories/P_Fruit4.v
theories/P_Fruit5.v
theories/P_Fruit6.v
theories/P_Fruit7.v
theories/P_Fruit8.v
theories/P_FruitIter.v
theories/P_IEEE.v
theories/P_ISS.v
theories/P_Kernels.v
theories/P_Labels.v
theories/P_Live.v
theories/P_Mem.v
theories/P_Mem2.v
theories/P_Offset.v
theories/P_Par.v
theories/P_Prep.v
theories/P_Prep2.v
theories/P_Prep3.v
theories/P_PrepObj.v
theories/P_PyEq.v
theories/P_Requires.v
theories/P_Rowwise.v
theories/P_Run.v
theories/P_Scale.v
theories/P_Seeds.v
theories/P_Sieve.v
theories/P_Sieve2.v
theories/P_Sieve3.v
theories/P_Summary.v
theories/P_Text.v
theories/P_Train.v
theories/P_Train2.v
theories/P_Units.v
theories/P_Warp.v
theories/P_Warp2.v
theories/P_WordObj.v
theories/P_Words.v
theories/P_Words2.v
theories/S_Chen.v
theories/S_Cos.v
theories/S_Custom.v
theories/S_Dtype.v
theories/S_Float.v
theories/S_Fruit.v
theories/S_IEEE.v
theories/S_ISS.v
theories/S_Mem.v
theories/S_Mem2.v
theories/S_Par.v
theories/S_Plan.v
theories/S_Prep.v
theories/S_Rowwise.v
theories/S_Rowwise2.v
theories/S_Sep.v
theories/S_Shuffle.v
theories/S_Sieve.v
theories/S_Text.v
theories/S_Trace.v
theories/S_Train.v
theories/S_Weight.v
theories/S_Words.v
theories/T_Conformance.v
theories/T_Run.v
