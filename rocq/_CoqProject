-Q theories Verif
theories/AC_Batch.v
theories/AC_Buffer.v
theories/AC_Examples.v
theories/AC_Interval.v
theories/AC_Loop.v
theories/AC_Main.v
theories/AC_Model.v
theories/AC_Overrun.v
theories/AC_Proofs.v
theories/AC_Props.v
theories/AC_Size.v
theories/AC_Spec.v
theories/AC_SpecR.v
theories/AC_Top.v
theories/Base.v
theories/Build_Model.v
theories/Build_Props.v
theories/CE_Model.v
theories/CE_Props.v
theories/Cifar_Model.v
theories/Cifar_Props.v
theories/ClicImg_Model.v
theories/ClicImg_Props.v
theories/Clic_Model.v
theories/Clic_Props.v
theories/Clic_Spec.v
theories/Diff_Examples.v
theories/Diff_Model.v
theories/Diff_Proofs.v
theories/Diff_Props.v
theories/Diff_QFloat.v
theories/Diff_QModel.v
theories/Diff_Quant.v
theories/Diff_Spec.v
theories/Diff_Trace.v
theories/Dist_Model.v
theories/Dist_Proofs.v
theories/Dist_Props.v
theories/Dist_Spec.v
theories/DvcGop_Model.v
theories/DvcGop_Props.v
theories/DvcLoss_Model.v
theories/DvcLoss_Props.v
theories/DvcStages_Model.v
theories/DvcStages_Props.v
theories/Dvc_Model.v
theories/Dvc_Proofs.v
theories/Dvc_Props.v
theories/Dvc_Spec.v
theories/EM_Model.v
theories/EM_Proofs.v
theories/EM_Props.v
theories/EM_Spec.v
theories/FDiv.v
theories/Fid_Model.v
theories/Fid_Proofs.v
theories/Fid_Props.v
theories/Fid_Spec.v
theories/Flops_Model.v
theories/Flops_Props.v
theories/Folder_Model.v
theories/Folder_Props.v
theories/Func_Model.v
theories/Func_Proofs.v
theories/Func_Props.v
theories/Func_Spec.v
theories/GDiff_Model.v
theories/GDiff_Props.v
theories/GanLoss_Model.v
theories/GanLoss_Props.v
theories/Gan_Model.v
theories/Gan_Props.v
theories/Gauss.v
theories/GradGsn_Props.v
theories/GradPipe_Props.v
theories/GradVq_Props.v
theories/Grad_Model.v
theories/Grad_Props.v
theories/Gsn_Model.v
theories/Gsn_Proofs.v
theories/Gsn_Props.v
theories/Gsn_Spec.v
theories/Heap_Model.v
theories/Heap_Props.v
theories/HsvFloat_Model.v
theories/HsvFloat_Props.v
theories/Hyp_Model.v
theories/Hyp_Proofs.v
theories/Hyp_Props.v
theories/Hyp_Spec.v
theories/ImgCache_Model.v
theories/ImgCache_Props.v
theories/ImgMod_Model.v
theories/ImgMod_Props.v
theories/ImgTf_Model.v
theories/ImgTf_Props.v
theories/Info_Model.v
theories/Info_Props.v
theories/Job_Diff.v
theories/Job_Model.v
theories/Job_Names.v
theories/Job_Proofs.v
theories/Job_Props.v
theories/Job_Spec.v
theories/Kodak_Model.v
theories/Kodak_Props.v
theories/Loss_Model.v
theories/Loss_Props.v
theories/Memo_Model.v
theories/Memo_Proofs.v
theories/Memo_Props.v
theories/Memo_Spec.v
theories/MetFloat_Model.v
theories/MetFloat_Props.v
theories/Met_Model.v
theories/Met_Props.v
theories/Met_Spec.v
theories/Mosaic_Model.v
theories/Mosaic_Props.v
theories/Net_Model.v
theories/Net_Proofs.v
theories/Net_Props.v
theories/Noise_Props.v
theories/Norm_Model.v
theories/Norm_Props.v
theories/OasisGrad_Props.v
theories/OpenImg_Model.v
theories/OpenImg_Props.v
theories/Opt_Model.v
theories/Opt_Props.v
theories/Params_Model.v
theories/Params_Props.v
theories/Patch_Model.v
theories/Patch_Proofs.v
theories/Patch_Props.v
theories/Patch_Spec.v
theories/Pickle_Model.v
theories/Pickle_Props.v
theories/Pipe_Model.v
theories/Pipe_Proofs.v
theories/Pipe_Props.v
theories/Pipe_Spec.v
theories/Psnr_Props.v
theories/Quant_Model.v
theories/Quant_Props.v
theories/RBase.v
theories/RFloat.v
theories/RSum.v
theories/Rans_BitsBack.v
theories/Rans_Capacity.v
theories/Rans_Codec.v
theories/Rans_Coder.v
theories/Rans_Examples.v
theories/Rans_Lane.v
theories/Rans_Model.v
theories/Rans_More.v
theories/Rans_Props.v
theories/Rans_Refine.v
theories/Rans_Serial.v
theories/Rans_Size.v
theories/Rans_Sort.v
theories/Rans_Spec.v
theories/Rans_SpecBB.v
theories/Rans_SpecR.v
theories/Rans_Stack.v
theories/Rans_Top.v
theories/Rate_Model.v
theories/Rate_Props.v
theories/Sched_Model.v
theories/Sched_Props.v
theories/Ssim_Model.v
theories/Ssim_Proofs.v
theories/Ssim_Props.v
theories/Ssim_Refine.v
theories/Ssim_Spec.v
theories/Start_Model.v
theories/Start_Props.v
theories/Steps_Float.v
theories/Steps_Model.v
theories/Steps_Proofs.v
theories/Steps_Props.v
theories/Steps_Spec.v
theories/TF_Model.v
theories/TF_Proofs.v
theories/TF_Props.v
theories/TF_Spec.v
theories/Tail_Model.v
theories/Tail_Props.v
theories/Tail_Spec.v
theories/Tensor.v
theories/TfTrain_Model.v
theories/TfTrain_Proofs.v
theories/TfTrain_Props.v
theories/Train_Model.v
theories/Train_Props.v
theories/Unet_Model.v
theories/Unet_Proofs.v
theories/Unet_Props.v
theories/Unet_Spec.v
theories/ValCausal_Model.v
theories/ValCausal_Props.v
theories/VctEval_Model.v
theories/VctEval_Props.v
theories/VctInit_Model.v
theories/VctInit_Props.v
theories/VctLit_Model.v
theories/VctLit_Props.v
theories/VctShape_Model.v
theories/VctShape_Props.v
theories/VidData_Model.v
theories/VidData_Props.v
theories/Vimeo_Model.v
theories/Vimeo_Props.v
theories/Vlb_Model.v
theories/Vlb_Props.v
theories/VqNet_Model.v
theories/VqNet_Props.v
theories/VqTree_Model.v
theories/VqTree_Props.v
theories/Vq_Model.v
theories/Vq_Proofs.v
theories/Vq_Props.v
theories/Vq_Spec.v
theories/VqbFloat_Model.v
theories/VqbFloat_Props.v
theories/Vqb_Model.v
theories/Vqb_Props.v
theories/Vqb_Spec.v
theories/Vtab_Model.v
theories/Vtab_Props.v
theories/Warp_Model.v
theories/Warp_Props.v
theories/Xca_Model.v
theories/Xca_Props.v
theories/Zoo_Model.v
theories/Zoo_Props.v
