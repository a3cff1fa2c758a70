-Q theories Verif
theories/Lib/Arr.v
theories/Lib/ArrFacts.v
theories/Lib/Cplx.v
theories/Lib/Ext.v
theories/Lib/ExtFacts.v
theories/Lib/Lim.v
theories/Lib/MatFacts.v
theories/Lib/Py.v
theories/Lib/PyFacts.v
theories/Lib/Sums.v
theories/Lib/Vec.v
theories/Lib/VecFacts.v
theories/Model/CBackend.v
theories/Model/Cuda.v
theories/Model/CustomOps.v
theories/Model/FFT.v
theories/Model/ForwardFloat.v
theories/Model/ForwardMWFloat.v
theories/Model/FourierWigner.v
theories/Model/GaussLegendre.v
theories/Model/Grids.v
theories/Model/HResult.v
theories/Model/HealpixFFT.v
theories/Model/Index.v
theories/Model/JaxCuda.v
theories/Model/OTF.v
theories/Model/OTFSpherical.v
theories/Model/OTFWigner.v
theories/Model/PMSlices.v
theories/Model/Precompute.v
theories/Model/PrecomputeFloat.v
theories/Model/PrecomputeIter.v
theories/Model/PrecomputeWigner.v
theories/Model/PriceMcEwen.v
theories/Model/Quadrature.v
theories/Model/QuadratureJax.v
theories/Model/RealFloat.v
theories/Model/Refine.v
theories/Model/Resampling.v
theories/Model/ResamplingFloat.v
theories/Model/Risbo.v
theories/Model/RisboFloat.v
theories/Model/Rotation.v
theories/Model/Samples.v
theories/Model/SignalGen.v
theories/Model/Spherical.v
theories/Model/Spmd.v
theories/Model/TorchWrapper.v
theories/Model/Trapani.v
theories/Model/Turok.v
theories/Model/TurokJax.v
theories/Model/Wigner.v
theories/Model/WignerFloat.v
theories/Model/WignerForwardFloat.v
theories/Model/WignerForwardMWFloat.v
theories/Model/WignerRealFloat.v
theories/Model/WignerRealForwardFloat.v
theories/Model/WignerRealForwardMWFloat.v
theories/Proofs/Binary64.v
theories/Proofs/CBackendBound.v
theories/Proofs/CBackendGrad.v
theories/Proofs/CBackendHealpy.v
theories/Proofs/CBackendHealpyGrad.v
theories/Proofs/CBackendLib.v
theories/Proofs/CBackendRefute.v
theories/Proofs/CBackendSsht.v
theories/Proofs/CBackendTop.v
theories/Proofs/CBackendWeights.v
theories/Proofs/CBackendWigner.v
theories/Proofs/CudaCacheProofs.v
theories/Proofs/CudaKernelProofs.v
theories/Proofs/CudaPlanProofs.v
theories/Proofs/CudaProofs.v
theories/Proofs/CudaPropsProofs.v
theories/Proofs/CustomOpsProofs.v
theories/Proofs/CustomOpsTop.v
theories/Proofs/FWArrays.v
theories/Proofs/FWForward.v
theories/Proofs/FWInverse.v
theories/Proofs/FloatForward.v
theories/Proofs/FloatForwardTop.v
theories/Proofs/FloatFourier.v
theories/Proofs/FloatInverse.v
theories/Proofs/FloatKernel.v
theories/Proofs/FloatMWForward.v
theories/Proofs/FloatMWTop.v
theories/Proofs/FloatMWWeights.v
theories/Proofs/FloatReal.v
theories/Proofs/FloatRealForward.v
theories/Proofs/FloatRealInverse.v
theories/Proofs/FloatResampling.v
theories/Proofs/FloatResamplingTop.v
theories/Proofs/FloatSums.v
theories/Proofs/FloatTop.v
theories/Proofs/FloatWeights.v
theories/Proofs/FloatWigner.v
theories/Proofs/FloatWignerForward.v
theories/Proofs/FloatWignerForwardTop.v
theories/Proofs/FloatWignerFourier.v
theories/Proofs/FloatWignerMW.v
theories/Proofs/FloatWignerMWTop.v
theories/Proofs/FloatWignerReal.v
theories/Proofs/FloatWignerRealForward.v
theories/Proofs/FloatWignerRealMW.v
theories/Proofs/GaussBounds.v
theories/Proofs/GaussProofs.v
theories/Proofs/GridProofs.v
theories/Proofs/HResultProofs.v
theories/Proofs/HealpixDFTProofs.v
theories/Proofs/HealpixFFTProofs.v
theories/Proofs/IndexFastProofs.v
theories/Proofs/IndexProofs.v
theories/Proofs/JaxCudaProofs.v
theories/Proofs/JaxCudaRefine.v
theories/Proofs/JaxCudaTop.v
theories/Proofs/L2Norm.v
theories/Proofs/Legendre.v
theories/Proofs/LegendreZeros.v
theories/Proofs/NewtonConv.v
theories/Proofs/OTFAdjoint.v
theories/Proofs/OTFFindings.v
theories/Proofs/OTFLimit.v
theories/Proofs/OTFProofs.v
theories/Proofs/OTFReality.v
theories/Proofs/OTFRegular.v
theories/Proofs/OTFSphForward.v
theories/Proofs/OTFSphInverse.v
theories/Proofs/OTFSphMore.v
theories/Proofs/OTFSphNear.v
theories/Proofs/OTFSphTop.v
theories/Proofs/OTFTop.v
theories/Proofs/OTFWignerForward.v
theories/Proofs/OTFWignerFwdTop.v
theories/Proofs/OTFWignerInvTop.v
theories/Proofs/OTFWignerInverse.v
theories/Proofs/OTFWignerLoop.v
theories/Proofs/PMHalf.v
theories/Proofs/PMKernel.v
theories/Proofs/PMPre.v
theories/Proofs/PMSlicesProofs.v
theories/Proofs/PMTop.v
theories/Proofs/PWForward.v
theories/Proofs/PWInverse.v
theories/Proofs/PWKernel.v
theories/Proofs/PWTop.v
theories/Proofs/PixelProofs.v
theories/Proofs/PrecomputeIterProofs.v
theories/Proofs/PrecomputeKernel.v
theories/Proofs/PrecomputeSph.v
theories/Proofs/PrecomputeTop.v
theories/Proofs/QuadJaxProofs.v
theories/Proofs/QuadProofs.v
theories/Proofs/RefineNear.v
theories/Proofs/RefineProofs.v
theories/Proofs/RefineSph.v
theories/Proofs/ResamplingFacts.v
theories/Proofs/ResamplingGen.v
theories/Proofs/ResamplingProofs.v
theories/Proofs/RisboFloatProofs.v
theories/Proofs/RisboJaxFloat.v
theories/Proofs/RisboProofs.v
theories/Proofs/RisboRound.v
theories/Proofs/RotationMore.v
theories/Proofs/RotationProofs.v
theories/Proofs/RotationTheory.v
theories/Proofs/SamplesProofs.v
theories/Proofs/SignalGenProofs.v
theories/Proofs/SpectralBound.v
theories/Proofs/SphAngles.v
theories/Proofs/SphFacts.v
theories/Proofs/SphForward.v
theories/Proofs/SphForwardTop.v
theories/Proofs/SphGrid.v
theories/Proofs/SphInverse.v
theories/Proofs/SphMore.v
theories/Proofs/SphRefuted.v
theories/Proofs/SphRound.v
theories/Proofs/SphTop.v
theories/Proofs/SphereTheory.v
theories/Proofs/SpmdProofs.v
theories/Proofs/SpmdTop.v
theories/Proofs/TorchProofs.v
theories/Proofs/TrapaniMath.v
theories/Proofs/TrapaniProofs.v
theories/Proofs/TurokFull.v
theories/Proofs/TurokJaxProofs.v
theories/Proofs/TurokProofs.v
theories/Proofs/WignerCalc.v
theories/Proofs/WignerDh.v
theories/Proofs/WignerForward.v
theories/Proofs/WignerFourier.v
theories/Proofs/WignerGen.v
theories/Proofs/WignerInverse.v
theories/Proofs/WignerLinear.v
theories/Proofs/WignerReal.v
theories/Proofs/WignerRound.v
theories/Properties/CBackendProps.v
theories/Properties/CBackendWignerProps.v
theories/Properties/CudaProps.v
theories/Properties/CustomOpsProps.v
theories/Properties/ForwardFloatProps.v
theories/Properties/ForwardMWFloatProps.v
theories/Properties/FourierWignerProps.v
theories/Properties/GaussProps.v
theories/Properties/GridProps.v
theories/Properties/HealpixFFTProps.v
theories/Properties/HealpyProps.v
theories/Properties/IndexProps.v
theories/Properties/JaxCudaProps.v
theories/Properties/LinearProps.v
theories/Properties/OTFProps.v
theories/Properties/OTFRealityProps.v
theories/Properties/OTFSphericalProps.v
theories/Properties/OTFWignerProps.v
theories/Properties/PrecomputeFloatProps.v
theories/Properties/PrecomputeIterProps.v
theories/Properties/PrecomputePMProps.v
theories/Properties/PrecomputeProps.v
theories/Properties/PrecomputeWignerProps.v
theories/Properties/QuadJaxProps.v
theories/Properties/QuadProps.v
theories/Properties/RealFloatProps.v
theories/Properties/RefineProps.v
theories/Properties/ResamplingFloatProps.v
theories/Properties/ResamplingProps.v
theories/Properties/RisboFloatProps.v
theories/Properties/RisboProps.v
theories/Properties/RotationProps.v
theories/Properties/SamplesProps.v
theories/Properties/SignalGenProps.v
theories/Properties/SlicesProps.v
theories/Properties/SphericalProps.v
theories/Properties/SpmdProps.v
theories/Properties/TorchProps.v
theories/Properties/TrapaniProps.v
theories/Properties/TurokJaxProps.v
theories/Properties/TurokProps.v
theories/Properties/WignerFloatFftProps.v
theories/Properties/WignerFloatProps.v
theories/Properties/WignerForwardFloatProps.v
theories/Properties/WignerForwardMWFloatProps.v
theories/Properties/WignerProps.v
theories/Properties/WignerRealFloatProps.v
theories/Properties/WignerRealForwardFloatProps.v
theories/Properties/WignerRealForwardMWFloatProps.v
theories/Spec/CBackendSpec.v
theories/Spec/CallSpec.v
theories/Spec/CudaSpec.v
theories/Spec/CustomOpsSpec.v
theories/Spec/ForwardFloatSpec.v
theories/Spec/FourierWignerSpec.v
theories/Spec/GridSpec.v
theories/Spec/HealpixFFTSpec.v
theories/Spec/IndexSpec.v
theories/Spec/JaxCudaSpec.v
theories/Spec/OTFSpec.v
theories/Spec/OTFSphericalSpec.v
theories/Spec/OTFWignerSpec.v
theories/Spec/PrecomputeFloatSpec.v
theories/Spec/PrecomputeSpec.v
theories/Spec/PrecomputeWignerSpec.v
theories/Spec/QuadSpec.v
theories/Spec/RealFloatSpec.v
theories/Spec/RefineSpec.v
theories/Spec/ResamplingFloatSpec.v
theories/Spec/RotationSpec.v
theories/Spec/RoundingSpec.v
theories/Spec/SO3Spec.v
theories/Spec/SamplesSpec.v
theories/Spec/SignalSpec.v
theories/Spec/SphereSpec.v
theories/Spec/SphericalSpec.v
theories/Spec/SpmdSpec.v
theories/Spec/TorchSpec.v
theories/Spec/TrapaniSpec.v
theories/Spec/WignerFloatSpec.v
theories/Spec/WignerForwardFloatSpec.v
theories/Spec/WignerSpec.v
