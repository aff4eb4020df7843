(** The files integration/checkpoints/*.json, transcribed by tools/gen_checkpoints.py in the order of their names, without the line "module" (a module's [str]). *)
From Coq Require Import String ZArith List.
From Verif Require Import ModelFormat.
Import ListNotations.
Local Open Scope string_scope.
Local Open Scope Z_scope.

Definition checkpoint_files : list (string * summary) :=
 [
("BatchNorm", Summary "f32[8, 2, 2, 3]"
   (Some (Tree 6 24
    [(("batch_norm", "offset"), "f32[1, 1, 1, 3]");
     (("batch_norm", "scale"), "f32[1, 1, 1, 3]")]))
   (Some (Tree 14 56
    [(("batch_norm/~/mean_ema", "average"), "f32[1, 1, 1, 3]");
     (("batch_norm/~/mean_ema", "counter"), "s32[]");
     (("batch_norm/~/mean_ema", "hidden"), "f32[1, 1, 1, 3]");
     (("batch_norm/~/var_ema", "average"), "f32[1, 1, 1, 3]");
     (("batch_norm/~/var_ema", "counter"), "s32[]");
     (("batch_norm/~/var_ema", "hidden"), "f32[1, 1, 1, 3]")])));
  ("Bias", Summary "f32[8, 3, 3, 3]"
   (Some (Tree 27 108
    [(("bias", "b"), "f32[3, 3, 3]")]))
   None);
  ("Conv1D", Summary "f32[8, 2, 2]"
   (Some (Tree 21 84
    [(("conv1_d", "b"), "f32[3]");
     (("conv1_d", "w"), "f32[3, 2, 3]")]))
   None);
  ("Conv1DTranspose", Summary "f32[8, 2, 2]"
   (Some (Tree 21 84
    [(("conv1_d_transpose", "b"), "f32[3]");
     (("conv1_d_transpose", "w"), "f32[3, 3, 2]")]))
   None);
  ("Conv2D", Summary "f32[8, 2, 2, 2]"
   (Some (Tree 57 228
    [(("conv2_d", "b"), "f32[3]");
     (("conv2_d", "w"), "f32[3, 3, 2, 3]")]))
   None);
  ("Conv2DTranspose", Summary "f32[8, 2, 2, 2]"
   (Some (Tree 57 228
    [(("conv2_d_transpose", "b"), "f32[3]");
     (("conv2_d_transpose", "w"), "f32[3, 3, 3, 2]")]))
   None);
  ("Conv3D", Summary "f32[8, 2, 2, 2, 2]"
   (Some (Tree 165 660
    [(("conv3_d", "b"), "f32[3]");
     (("conv3_d", "w"), "f32[3, 3, 3, 2, 3]")]))
   None);
  ("Conv3DTranspose", Summary "f32[8, 2, 2, 2, 2]"
   (Some (Tree 165 660
    [(("conv3_d_transpose", "b"), "f32[3]");
     (("conv3_d_transpose", "w"), "f32[3, 3, 3, 3, 2]")]))
   None);
  ("ConvND", Summary "f32[8, 2, 2]"
   (Some (Tree 21 84
    [(("conv_nd", "b"), "f32[3]");
     (("conv_nd", "w"), "f32[3, 2, 3]")]))
   None);
  ("ConvNDTranspose", Summary "f32[8, 2, 2]"
   (Some (Tree 21 84
    [(("conv_nd_transpose", "b"), "f32[3]");
     (("conv_nd_transpose", "w"), "f32[3, 3, 2]")]))
   None);
  ("DepthwiseConv2D", Summary "f32[8, 2, 2, 2]"
   (Some (Tree 20 80
    [(("depthwise_conv2_d", "b"), "f32[2]");
     (("depthwise_conv2_d", "w"), "f32[3, 3, 1, 2]")]))
   None);
  ("Embed", Summary "s32[8]"
   (Some (Tree 72 288
    [(("embed", "embeddings"), "f32[6, 12]")]))
   None);
  ("Flatten", Summary "f32[8, 3, 3, 3]"
   None
   None);
  ("GroupNorm", Summary "f32[8, 4, 4, 10]"
   (Some (Tree 20 80
    [(("group_norm", "offset"), "f32[10]");
     (("group_norm", "scale"), "f32[10]")]))
   None);
  ("InstanceNorm", Summary "f32[8, 3, 2]"
   (Some (Tree 4 16
    [(("instance_norm", "offset"), "f32[2]");
     (("instance_norm", "scale"), "f32[2]")]))
   None);
  ("LayerNorm", Summary "f32[8, 3, 2]"
   (Some (Tree 4 16
    [(("layer_norm", "offset"), "f32[2]");
     (("layer_norm", "scale"), "f32[2]")]))
   None);
  ("Linear", Summary "f32[8, 1]"
   (Some (Tree 20 80
    [(("linear", "b"), "f32[10]");
     (("linear", "w"), "f32[1, 10]")]))
   None);
  ("MultiHeadAttention", Summary "f32[8, 3, 2]"
   (Some (Tree 267264 1069056
    [(("multi_head_attention/key", "b"), "f32[512]");
     (("multi_head_attention/key", "w"), "f32[2, 512]");
     (("multi_head_attention/linear", "b"), "f32[512]");
     (("multi_head_attention/linear", "w"), "f32[512, 512]");
     (("multi_head_attention/query", "b"), "f32[512]");
     (("multi_head_attention/query", "w"), "f32[2, 512]");
     (("multi_head_attention/value", "b"), "f32[512]");
     (("multi_head_attention/value", "w"), "f32[2, 512]")]))
   None);
  ("Recurrent-Conv1DLSTM-dynamic_unroll", Summary "f32[8, 2, 2]"
   (Some (Tree 204 816
    [(("conv1_dlstm/hidden_to_hidden", "b"), "f32[12]");
     (("conv1_dlstm/hidden_to_hidden", "w"), "f32[3, 3, 12]");
     (("conv1_dlstm/input_to_hidden", "b"), "f32[12]");
     (("conv1_dlstm/input_to_hidden", "w"), "f32[3, 2, 12]")]))
   None);
  ("Recurrent-Conv1DLSTM-static_unroll", Summary "f32[8, 2, 2]"
   (Some (Tree 204 816
    [(("conv1_dlstm/hidden_to_hidden", "b"), "f32[12]");
     (("conv1_dlstm/hidden_to_hidden", "w"), "f32[3, 3, 12]");
     (("conv1_dlstm/input_to_hidden", "b"), "f32[12]");
     (("conv1_dlstm/input_to_hidden", "w"), "f32[3, 2, 12]")]))
   None);
  ("Recurrent-Conv2DLSTM-dynamic_unroll", Summary "f32[8, 2, 2, 2]"
   (Some (Tree 564 2256
    [(("conv2_dlstm/hidden_to_hidden", "b"), "f32[12]");
     (("conv2_dlstm/hidden_to_hidden", "w"), "f32[3, 3, 3, 12]");
     (("conv2_dlstm/input_to_hidden", "b"), "f32[12]");
     (("conv2_dlstm/input_to_hidden", "w"), "f32[3, 3, 2, 12]")]))
   None);
  ("Recurrent-Conv2DLSTM-static_unroll", Summary "f32[8, 2, 2, 2]"
   (Some (Tree 564 2256
    [(("conv2_dlstm/hidden_to_hidden", "b"), "f32[12]");
     (("conv2_dlstm/hidden_to_hidden", "w"), "f32[3, 3, 3, 12]");
     (("conv2_dlstm/input_to_hidden", "b"), "f32[12]");
     (("conv2_dlstm/input_to_hidden", "w"), "f32[3, 3, 2, 12]")]))
   None);
  ("Recurrent-Conv3DLSTM-dynamic_unroll", Summary "f32[8, 2, 2, 2, 2]"
   (Some (Tree 1644 6576
    [(("conv3_dlstm/hidden_to_hidden", "b"), "f32[12]");
     (("conv3_dlstm/hidden_to_hidden", "w"), "f32[3, 3, 3, 3, 12]");
     (("conv3_dlstm/input_to_hidden", "b"), "f32[12]");
     (("conv3_dlstm/input_to_hidden", "w"), "f32[3, 3, 3, 2, 12]")]))
   None);
  ("Recurrent-Conv3DLSTM-static_unroll", Summary "f32[8, 2, 2, 2, 2]"
   (Some (Tree 1644 6576
    [(("conv3_dlstm/hidden_to_hidden", "b"), "f32[12]");
     (("conv3_dlstm/hidden_to_hidden", "w"), "f32[3, 3, 3, 3, 12]");
     (("conv3_dlstm/input_to_hidden", "b"), "f32[12]");
     (("conv3_dlstm/input_to_hidden", "w"), "f32[3, 3, 3, 2, 12]")]))
   None);
  ("Recurrent-GRU-dynamic_unroll", Summary "f32[8, 128]"
   (Some (Tree 390 1560
    [(("gru", "b"), "f32[3]");
     (("gru", "w_h"), "f32[1, 3]");
     (("gru", "w_i"), "f32[128, 3]")]))
   None);
  ("Recurrent-GRU-static_unroll", Summary "f32[8, 128]"
   (Some (Tree 390 1560
    [(("gru", "b"), "f32[3]");
     (("gru", "w_h"), "f32[1, 3]");
     (("gru", "w_i"), "f32[128, 3]")]))
   None);
  ("Recurrent-IdentityCore-dynamic_unroll", Summary "f32[8, 128]"
   None
   None);
  ("Recurrent-IdentityCore-static_unroll", Summary "f32[8, 128]"
   None
   None);
  ("Recurrent-LSTM-dynamic_unroll", Summary "f32[8, 128]"
   (Some (Tree 520 2080
    [(("lstm/linear", "b"), "f32[4]");
     (("lstm/linear", "w"), "f32[129, 4]")]))
   None);
  ("Recurrent-LSTM-static_unroll", Summary "f32[8, 128]"
   (Some (Tree 520 2080
    [(("lstm/linear", "b"), "f32[4]");
     (("lstm/linear", "w"), "f32[129, 4]")]))
   None);
  ("Recurrent-ResetCore-dynamic_unroll", Summary "f32[8, 128]"
   None
   None);
  ("Recurrent-ResetCore-static_unroll", Summary "f32[8, 128]"
   None
   None);
  ("Recurrent-VanillaRNN-dynamic_unroll", Summary "f32[8, 128]"
   (Some (Tree 1104 4416
    [(("vanilla_rnn/linear", "b"), "f32[8]");
     (("vanilla_rnn/linear", "w"), "f32[128, 8]");
     (("vanilla_rnn/linear_1", "b"), "f32[8]");
     (("vanilla_rnn/linear_1", "w"), "f32[8, 8]")]))
   None);
  ("Recurrent-VanillaRNN-static_unroll", Summary "f32[8, 128]"
   (Some (Tree 1104 4416
    [(("vanilla_rnn/linear", "b"), "f32[8]");
     (("vanilla_rnn/linear", "w"), "f32[128, 8]");
     (("vanilla_rnn/linear_1", "b"), "f32[8]");
     (("vanilla_rnn/linear_1", "w"), "f32[8, 8]")]))
   None);
  ("SeparableDepthwiseConv2D", Summary "f32[8, 2, 2, 2]"
   (Some (Tree 14 56
    [(("separable_depthwise_conv2_d/~/depthwise_conv2_d", "w"), "f32[3, 1, 1, 2]");
     (("separable_depthwise_conv2_d/~/depthwise_conv2_d_1", "b"), "f32[2]");
     (("separable_depthwise_conv2_d/~/depthwise_conv2_d_1", "w"), "f32[1, 3, 1, 2]")]))
   None);
  ("Sequential", Summary "f32[8, 2, 2]"
   None
   None);
  ("SpectralNorm", Summary "f32[8, 3, 2]"
   None
   (Some (Tree 3 12
    [(("spectral_norm", "sigma"), "f32[]");
     (("spectral_norm", "u0"), "f32[1, 2]")])));
  ("nets.MLP", Summary "f32[8, 3]"
   (Some (Tree 53 212
    [(("mlp/~/linear_0", "b"), "f32[3]");
     (("mlp/~/linear_0", "w"), "f32[3, 3]");
     (("mlp/~/linear_1", "b"), "f32[4]");
     (("mlp/~/linear_1", "w"), "f32[3, 4]");
     (("mlp/~/linear_2", "b"), "f32[5]");
     (("mlp/~/linear_2", "w"), "f32[4, 5]")]))
   None);
  ("nets.MobileNetV1", Summary "f32[8, 64, 64, 2]"
   (Some (Tree 69816 279264
    [(("mobile_net_v1/batch_norm", "offset"), "f32[1, 1, 1, 32]");
     (("mobile_net_v1/batch_norm", "scale"), "f32[1, 1, 1, 32]");
     (("mobile_net_v1/conv2_d", "w"), "f32[3, 3, 2, 32]");
     (("mobile_net_v1/logits", "b"), "f32[1000]");
     (("mobile_net_v1/logits", "w"), "f32[64, 1000]");
     (("mobile_net_v1/mobile_net_v1_block/batch_norm", "offset"), "f32[1, 1, 1, 32]");
     (("mobile_net_v1/mobile_net_v1_block/batch_norm", "scale"), "f32[1, 1, 1, 32]");
     (("mobile_net_v1/mobile_net_v1_block/batch_norm_1", "offset"), "f32[1, 1, 1, 16]");
     (("mobile_net_v1/mobile_net_v1_block/batch_norm_1", "scale"), "f32[1, 1, 1, 16]");
     (("mobile_net_v1/mobile_net_v1_block/depthwise_conv", "w"), "f32[3, 3, 1, 32]");
     (("mobile_net_v1/mobile_net_v1_block/pointwise_conv", "w"), "f32[1, 1, 32, 16]");
     (("mobile_net_v1/mobile_net_v1_block_1/batch_norm", "offset"), "f32[1, 1, 1, 16]");
     (("mobile_net_v1/mobile_net_v1_block_1/batch_norm", "scale"), "f32[1, 1, 1, 16]");
     (("mobile_net_v1/mobile_net_v1_block_1/batch_norm_1", "offset"), "f32[1, 1, 1, 32]");
     (("mobile_net_v1/mobile_net_v1_block_1/batch_norm_1", "scale"), "f32[1, 1, 1, 32]");
     (("mobile_net_v1/mobile_net_v1_block_1/depthwise_conv", "w"), "f32[3, 3, 1, 16]");
     (("mobile_net_v1/mobile_net_v1_block_1/pointwise_conv", "w"), "f32[1, 1, 16, 32]");
     (("mobile_net_v1/mobile_net_v1_block_2/batch_norm", "offset"), "f32[1, 1, 1, 32]");
     (("mobile_net_v1/mobile_net_v1_block_2/batch_norm", "scale"), "f32[1, 1, 1, 32]");
     (("mobile_net_v1/mobile_net_v1_block_2/batch_norm_1", "offset"), "f32[1, 1, 1, 64]");
     (("mobile_net_v1/mobile_net_v1_block_2/batch_norm_1", "scale"), "f32[1, 1, 1, 64]");
     (("mobile_net_v1/mobile_net_v1_block_2/depthwise_conv", "w"), "f32[3, 3, 1, 32]");
     (("mobile_net_v1/mobile_net_v1_block_2/pointwise_conv", "w"), "f32[1, 1, 32, 64]")]))
   (Some (Tree 910 3640
    [(("mobile_net_v1/batch_norm/~/mean_ema", "average"), "f32[1, 1, 1, 32]");
     (("mobile_net_v1/batch_norm/~/mean_ema", "counter"), "s32[]");
     (("mobile_net_v1/batch_norm/~/mean_ema", "hidden"), "f32[1, 1, 1, 32]");
     (("mobile_net_v1/batch_norm/~/var_ema", "average"), "f32[1, 1, 1, 32]");
     (("mobile_net_v1/batch_norm/~/var_ema", "counter"), "s32[]");
     (("mobile_net_v1/batch_norm/~/var_ema", "hidden"), "f32[1, 1, 1, 32]");
     (("mobile_net_v1/mobile_net_v1_block/batch_norm/~/mean_ema", "average"), "f32[1, 1, 1, 32]");
     (("mobile_net_v1/mobile_net_v1_block/batch_norm/~/mean_ema", "counter"), "s32[]");
     (("mobile_net_v1/mobile_net_v1_block/batch_norm/~/mean_ema", "hidden"), "f32[1, 1, 1, 32]");
     (("mobile_net_v1/mobile_net_v1_block/batch_norm/~/var_ema", "average"), "f32[1, 1, 1, 32]");
     (("mobile_net_v1/mobile_net_v1_block/batch_norm/~/var_ema", "counter"), "s32[]");
     (("mobile_net_v1/mobile_net_v1_block/batch_norm/~/var_ema", "hidden"), "f32[1, 1, 1, 32]");
     (("mobile_net_v1/mobile_net_v1_block/batch_norm_1/~/mean_ema", "average"), "f32[1, 1, 1, 16]");
     (("mobile_net_v1/mobile_net_v1_block/batch_norm_1/~/mean_ema", "counter"), "s32[]");
     (("mobile_net_v1/mobile_net_v1_block/batch_norm_1/~/mean_ema", "hidden"), "f32[1, 1, 1, 16]");
     (("mobile_net_v1/mobile_net_v1_block/batch_norm_1/~/var_ema", "average"), "f32[1, 1, 1, 16]");
     (("mobile_net_v1/mobile_net_v1_block/batch_norm_1/~/var_ema", "counter"), "s32[]");
     (("mobile_net_v1/mobile_net_v1_block/batch_norm_1/~/var_ema", "hidden"), "f32[1, 1, 1, 16]");
     (("mobile_net_v1/mobile_net_v1_block_1/batch_norm/~/mean_ema", "average"), "f32[1, 1, 1, 16]");
     (("mobile_net_v1/mobile_net_v1_block_1/batch_norm/~/mean_ema", "counter"), "s32[]");
     (("mobile_net_v1/mobile_net_v1_block_1/batch_norm/~/mean_ema", "hidden"), "f32[1, 1, 1, 16]");
     (("mobile_net_v1/mobile_net_v1_block_1/batch_norm/~/var_ema", "average"), "f32[1, 1, 1, 16]");
     (("mobile_net_v1/mobile_net_v1_block_1/batch_norm/~/var_ema", "counter"), "s32[]");
     (("mobile_net_v1/mobile_net_v1_block_1/batch_norm/~/var_ema", "hidden"), "f32[1, 1, 1, 16]");
     (("mobile_net_v1/mobile_net_v1_block_1/batch_norm_1/~/mean_ema", "average"), "f32[1, 1, 1, 32]");
     (("mobile_net_v1/mobile_net_v1_block_1/batch_norm_1/~/mean_ema", "counter"), "s32[]");
     (("mobile_net_v1/mobile_net_v1_block_1/batch_norm_1/~/mean_ema", "hidden"), "f32[1, 1, 1, 32]");
     (("mobile_net_v1/mobile_net_v1_block_1/batch_norm_1/~/var_ema", "average"), "f32[1, 1, 1, 32]");
     (("mobile_net_v1/mobile_net_v1_block_1/batch_norm_1/~/var_ema", "counter"), "s32[]");
     (("mobile_net_v1/mobile_net_v1_block_1/batch_norm_1/~/var_ema", "hidden"), "f32[1, 1, 1, 32]");
     (("mobile_net_v1/mobile_net_v1_block_2/batch_norm/~/mean_ema", "average"), "f32[1, 1, 1, 32]");
     (("mobile_net_v1/mobile_net_v1_block_2/batch_norm/~/mean_ema", "counter"), "s32[]");
     (("mobile_net_v1/mobile_net_v1_block_2/batch_norm/~/mean_ema", "hidden"), "f32[1, 1, 1, 32]");
     (("mobile_net_v1/mobile_net_v1_block_2/batch_norm/~/var_ema", "average"), "f32[1, 1, 1, 32]");
     (("mobile_net_v1/mobile_net_v1_block_2/batch_norm/~/var_ema", "counter"), "s32[]");
     (("mobile_net_v1/mobile_net_v1_block_2/batch_norm/~/var_ema", "hidden"), "f32[1, 1, 1, 32]");
     (("mobile_net_v1/mobile_net_v1_block_2/batch_norm_1/~/mean_ema", "average"), "f32[1, 1, 1, 64]");
     (("mobile_net_v1/mobile_net_v1_block_2/batch_norm_1/~/mean_ema", "counter"), "s32[]");
     (("mobile_net_v1/mobile_net_v1_block_2/batch_norm_1/~/mean_ema", "hidden"), "f32[1, 1, 1, 64]");
     (("mobile_net_v1/mobile_net_v1_block_2/batch_norm_1/~/var_ema", "average"), "f32[1, 1, 1, 64]");
     (("mobile_net_v1/mobile_net_v1_block_2/batch_norm_1/~/var_ema", "counter"), "s32[]");
     (("mobile_net_v1/mobile_net_v1_block_2/batch_norm_1/~/var_ema", "hidden"), "f32[1, 1, 1, 64]")])));
  ("nets.ResNet", Summary "f32[8, 3, 3, 2]"
   (Some (Tree 25553896 102215584
    [(("res_net/~/block_group_0/~/block_0/~/batchnorm_0", "offset"), "f32[1, 1, 1, 64]");
     (("res_net/~/block_group_0/~/block_0/~/batchnorm_0", "scale"), "f32[1, 1, 1, 64]");
     (("res_net/~/block_group_0/~/block_0/~/batchnorm_1", "offset"), "f32[1, 1, 1, 64]");
     (("res_net/~/block_group_0/~/block_0/~/batchnorm_1", "scale"), "f32[1, 1, 1, 64]");
     (("res_net/~/block_group_0/~/block_0/~/batchnorm_2", "offset"), "f32[1, 1, 1, 256]");
     (("res_net/~/block_group_0/~/block_0/~/batchnorm_2", "scale"), "f32[1, 1, 1, 256]");
     (("res_net/~/block_group_0/~/block_0/~/conv_0", "w"), "f32[1, 1, 64, 64]");
     (("res_net/~/block_group_0/~/block_0/~/conv_1", "w"), "f32[3, 3, 64, 64]");
     (("res_net/~/block_group_0/~/block_0/~/conv_2", "w"), "f32[1, 1, 64, 256]");
     (("res_net/~/block_group_0/~/block_0/~/shortcut_batchnorm", "offset"), "f32[1, 1, 1, 256]");
     (("res_net/~/block_group_0/~/block_0/~/shortcut_batchnorm", "scale"), "f32[1, 1, 1, 256]");
     (("res_net/~/block_group_0/~/block_0/~/shortcut_conv", "w"), "f32[1, 1, 64, 256]");
     (("res_net/~/block_group_0/~/block_1/~/batchnorm_0", "offset"), "f32[1, 1, 1, 64]");
     (("res_net/~/block_group_0/~/block_1/~/batchnorm_0", "scale"), "f32[1, 1, 1, 64]");
     (("res_net/~/block_group_0/~/block_1/~/batchnorm_1", "offset"), "f32[1, 1, 1, 64]");
     (("res_net/~/block_group_0/~/block_1/~/batchnorm_1", "scale"), "f32[1, 1, 1, 64]");
     (("res_net/~/block_group_0/~/block_1/~/batchnorm_2", "offset"), "f32[1, 1, 1, 256]");
     (("res_net/~/block_group_0/~/block_1/~/batchnorm_2", "scale"), "f32[1, 1, 1, 256]");
     (("res_net/~/block_group_0/~/block_1/~/conv_0", "w"), "f32[1, 1, 256, 64]");
     (("res_net/~/block_group_0/~/block_1/~/conv_1", "w"), "f32[3, 3, 64, 64]");
     (("res_net/~/block_group_0/~/block_1/~/conv_2", "w"), "f32[1, 1, 64, 256]");
     (("res_net/~/block_group_0/~/block_2/~/batchnorm_0", "offset"), "f32[1, 1, 1, 64]");
     (("res_net/~/block_group_0/~/block_2/~/batchnorm_0", "scale"), "f32[1, 1, 1, 64]");
     (("res_net/~/block_group_0/~/block_2/~/batchnorm_1", "offset"), "f32[1, 1, 1, 64]");
     (("res_net/~/block_group_0/~/block_2/~/batchnorm_1", "scale"), "f32[1, 1, 1, 64]");
     (("res_net/~/block_group_0/~/block_2/~/batchnorm_2", "offset"), "f32[1, 1, 1, 256]");
     (("res_net/~/block_group_0/~/block_2/~/batchnorm_2", "scale"), "f32[1, 1, 1, 256]");
     (("res_net/~/block_group_0/~/block_2/~/conv_0", "w"), "f32[1, 1, 256, 64]");
     (("res_net/~/block_group_0/~/block_2/~/conv_1", "w"), "f32[3, 3, 64, 64]");
     (("res_net/~/block_group_0/~/block_2/~/conv_2", "w"), "f32[1, 1, 64, 256]");
     (("res_net/~/block_group_1/~/block_0/~/batchnorm_0", "offset"), "f32[1, 1, 1, 128]");
     (("res_net/~/block_group_1/~/block_0/~/batchnorm_0", "scale"), "f32[1, 1, 1, 128]");
     (("res_net/~/block_group_1/~/block_0/~/batchnorm_1", "offset"), "f32[1, 1, 1, 128]");
     (("res_net/~/block_group_1/~/block_0/~/batchnorm_1", "scale"), "f32[1, 1, 1, 128]");
     (("res_net/~/block_group_1/~/block_0/~/batchnorm_2", "offset"), "f32[1, 1, 1, 512]");
     (("res_net/~/block_group_1/~/block_0/~/batchnorm_2", "scale"), "f32[1, 1, 1, 512]");
     (("res_net/~/block_group_1/~/block_0/~/conv_0", "w"), "f32[1, 1, 256, 128]");
     (("res_net/~/block_group_1/~/block_0/~/conv_1", "w"), "f32[3, 3, 128, 128]");
     (("res_net/~/block_group_1/~/block_0/~/conv_2", "w"), "f32[1, 1, 128, 512]");
     (("res_net/~/block_group_1/~/block_0/~/shortcut_batchnorm", "offset"), "f32[1, 1, 1, 512]");
     (("res_net/~/block_group_1/~/block_0/~/shortcut_batchnorm", "scale"), "f32[1, 1, 1, 512]");
     (("res_net/~/block_group_1/~/block_0/~/shortcut_conv", "w"), "f32[1, 1, 256, 512]");
     (("res_net/~/block_group_1/~/block_1/~/batchnorm_0", "offset"), "f32[1, 1, 1, 128]");
     (("res_net/~/block_group_1/~/block_1/~/batchnorm_0", "scale"), "f32[1, 1, 1, 128]");
     (("res_net/~/block_group_1/~/block_1/~/batchnorm_1", "offset"), "f32[1, 1, 1, 128]");
     (("res_net/~/block_group_1/~/block_1/~/batchnorm_1", "scale"), "f32[1, 1, 1, 128]");
     (("res_net/~/block_group_1/~/block_1/~/batchnorm_2", "offset"), "f32[1, 1, 1, 512]");
     (("res_net/~/block_group_1/~/block_1/~/batchnorm_2", "scale"), "f32[1, 1, 1, 512]");
     (("res_net/~/block_group_1/~/block_1/~/conv_0", "w"), "f32[1, 1, 512, 128]");
     (("res_net/~/block_group_1/~/block_1/~/conv_1", "w"), "f32[3, 3, 128, 128]");
     (("res_net/~/block_group_1/~/block_1/~/conv_2", "w"), "f32[1, 1, 128, 512]");
     (("res_net/~/block_group_1/~/block_2/~/batchnorm_0", "offset"), "f32[1, 1, 1, 128]");
     (("res_net/~/block_group_1/~/block_2/~/batchnorm_0", "scale"), "f32[1, 1, 1, 128]");
     (("res_net/~/block_group_1/~/block_2/~/batchnorm_1", "offset"), "f32[1, 1, 1, 128]");
     (("res_net/~/block_group_1/~/block_2/~/batchnorm_1", "scale"), "f32[1, 1, 1, 128]");
     (("res_net/~/block_group_1/~/block_2/~/batchnorm_2", "offset"), "f32[1, 1, 1, 512]");
     (("res_net/~/block_group_1/~/block_2/~/batchnorm_2", "scale"), "f32[1, 1, 1, 512]");
     (("res_net/~/block_group_1/~/block_2/~/conv_0", "w"), "f32[1, 1, 512, 128]");
     (("res_net/~/block_group_1/~/block_2/~/conv_1", "w"), "f32[3, 3, 128, 128]");
     (("res_net/~/block_group_1/~/block_2/~/conv_2", "w"), "f32[1, 1, 128, 512]");
     (("res_net/~/block_group_1/~/block_3/~/batchnorm_0", "offset"), "f32[1, 1, 1, 128]");
     (("res_net/~/block_group_1/~/block_3/~/batchnorm_0", "scale"), "f32[1, 1, 1, 128]");
     (("res_net/~/block_group_1/~/block_3/~/batchnorm_1", "offset"), "f32[1, 1, 1, 128]");
     (("res_net/~/block_group_1/~/block_3/~/batchnorm_1", "scale"), "f32[1, 1, 1, 128]");
     (("res_net/~/block_group_1/~/block_3/~/batchnorm_2", "offset"), "f32[1, 1, 1, 512]");
     (("res_net/~/block_group_1/~/block_3/~/batchnorm_2", "scale"), "f32[1, 1, 1, 512]");
     (("res_net/~/block_group_1/~/block_3/~/conv_0", "w"), "f32[1, 1, 512, 128]");
     (("res_net/~/block_group_1/~/block_3/~/conv_1", "w"), "f32[3, 3, 128, 128]");
     (("res_net/~/block_group_1/~/block_3/~/conv_2", "w"), "f32[1, 1, 128, 512]");
     (("res_net/~/block_group_2/~/block_0/~/batchnorm_0", "offset"), "f32[1, 1, 1, 256]");
     (("res_net/~/block_group_2/~/block_0/~/batchnorm_0", "scale"), "f32[1, 1, 1, 256]");
     (("res_net/~/block_group_2/~/block_0/~/batchnorm_1", "offset"), "f32[1, 1, 1, 256]");
     (("res_net/~/block_group_2/~/block_0/~/batchnorm_1", "scale"), "f32[1, 1, 1, 256]");
     (("res_net/~/block_group_2/~/block_0/~/batchnorm_2", "offset"), "f32[1, 1, 1, 1024]");
     (("res_net/~/block_group_2/~/block_0/~/batchnorm_2", "scale"), "f32[1, 1, 1, 1024]");
     (("res_net/~/block_group_2/~/block_0/~/conv_0", "w"), "f32[1, 1, 512, 256]");
     (("res_net/~/block_group_2/~/block_0/~/conv_1", "w"), "f32[3, 3, 256, 256]");
     (("res_net/~/block_group_2/~/block_0/~/conv_2", "w"), "f32[1, 1, 256, 1024]");
     (("res_net/~/block_group_2/~/block_0/~/shortcut_batchnorm", "offset"), "f32[1, 1, 1, 1024]");
     (("res_net/~/block_group_2/~/block_0/~/shortcut_batchnorm", "scale"), "f32[1, 1, 1, 1024]");
     (("res_net/~/block_group_2/~/block_0/~/shortcut_conv", "w"), "f32[1, 1, 512, 1024]");
     (("res_net/~/block_group_2/~/block_1/~/batchnorm_0", "offset"), "f32[1, 1, 1, 256]");
     (("res_net/~/block_group_2/~/block_1/~/batchnorm_0", "scale"), "f32[1, 1, 1, 256]");
     (("res_net/~/block_group_2/~/block_1/~/batchnorm_1", "offset"), "f32[1, 1, 1, 256]");
     (("res_net/~/block_group_2/~/block_1/~/batchnorm_1", "scale"), "f32[1, 1, 1, 256]");
     (("res_net/~/block_group_2/~/block_1/~/batchnorm_2", "offset"), "f32[1, 1, 1, 1024]");
     (("res_net/~/block_group_2/~/block_1/~/batchnorm_2", "scale"), "f32[1, 1, 1, 1024]");
     (("res_net/~/block_group_2/~/block_1/~/conv_0", "w"), "f32[1, 1, 1024, 256]");
     (("res_net/~/block_group_2/~/block_1/~/conv_1", "w"), "f32[3, 3, 256, 256]");
     (("res_net/~/block_group_2/~/block_1/~/conv_2", "w"), "f32[1, 1, 256, 1024]");
     (("res_net/~/block_group_2/~/block_2/~/batchnorm_0", "offset"), "f32[1, 1, 1, 256]");
     (("res_net/~/block_group_2/~/block_2/~/batchnorm_0", "scale"), "f32[1, 1, 1, 256]");
     (("res_net/~/block_group_2/~/block_2/~/batchnorm_1", "offset"), "f32[1, 1, 1, 256]");
     (("res_net/~/block_group_2/~/block_2/~/batchnorm_1", "scale"), "f32[1, 1, 1, 256]");
     (("res_net/~/block_group_2/~/block_2/~/batchnorm_2", "offset"), "f32[1, 1, 1, 1024]");
     (("res_net/~/block_group_2/~/block_2/~/batchnorm_2", "scale"), "f32[1, 1, 1, 1024]");
     (("res_net/~/block_group_2/~/block_2/~/conv_0", "w"), "f32[1, 1, 1024, 256]");
     (("res_net/~/block_group_2/~/block_2/~/conv_1", "w"), "f32[3, 3, 256, 256]");
     (("res_net/~/block_group_2/~/block_2/~/conv_2", "w"), "f32[1, 1, 256, 1024]");
     (("res_net/~/block_group_2/~/block_3/~/batchnorm_0", "offset"), "f32[1, 1, 1, 256]");
     (("res_net/~/block_group_2/~/block_3/~/batchnorm_0", "scale"), "f32[1, 1, 1, 256]");
     (("res_net/~/block_group_2/~/block_3/~/batchnorm_1", "offset"), "f32[1, 1, 1, 256]");
     (("res_net/~/block_group_2/~/block_3/~/batchnorm_1", "scale"), "f32[1, 1, 1, 256]");
     (("res_net/~/block_group_2/~/block_3/~/batchnorm_2", "offset"), "f32[1, 1, 1, 1024]");
     (("res_net/~/block_group_2/~/block_3/~/batchnorm_2", "scale"), "f32[1, 1, 1, 1024]");
     (("res_net/~/block_group_2/~/block_3/~/conv_0", "w"), "f32[1, 1, 1024, 256]");
     (("res_net/~/block_group_2/~/block_3/~/conv_1", "w"), "f32[3, 3, 256, 256]");
     (("res_net/~/block_group_2/~/block_3/~/conv_2", "w"), "f32[1, 1, 256, 1024]");
     (("res_net/~/block_group_2/~/block_4/~/batchnorm_0", "offset"), "f32[1, 1, 1, 256]");
     (("res_net/~/block_group_2/~/block_4/~/batchnorm_0", "scale"), "f32[1, 1, 1, 256]");
     (("res_net/~/block_group_2/~/block_4/~/batchnorm_1", "offset"), "f32[1, 1, 1, 256]");
     (("res_net/~/block_group_2/~/block_4/~/batchnorm_1", "scale"), "f32[1, 1, 1, 256]");
     (("res_net/~/block_group_2/~/block_4/~/batchnorm_2", "offset"), "f32[1, 1, 1, 1024]");
     (("res_net/~/block_group_2/~/block_4/~/batchnorm_2", "scale"), "f32[1, 1, 1, 1024]");
     (("res_net/~/block_group_2/~/block_4/~/conv_0", "w"), "f32[1, 1, 1024, 256]");
     (("res_net/~/block_group_2/~/block_4/~/conv_1", "w"), "f32[3, 3, 256, 256]");
     (("res_net/~/block_group_2/~/block_4/~/conv_2", "w"), "f32[1, 1, 256, 1024]");
     (("res_net/~/block_group_2/~/block_5/~/batchnorm_0", "offset"), "f32[1, 1, 1, 256]");
     (("res_net/~/block_group_2/~/block_5/~/batchnorm_0", "scale"), "f32[1, 1, 1, 256]");
     (("res_net/~/block_group_2/~/block_5/~/batchnorm_1", "offset"), "f32[1, 1, 1, 256]");
     (("res_net/~/block_group_2/~/block_5/~/batchnorm_1", "scale"), "f32[1, 1, 1, 256]");
     (("res_net/~/block_group_2/~/block_5/~/batchnorm_2", "offset"), "f32[1, 1, 1, 1024]");
     (("res_net/~/block_group_2/~/block_5/~/batchnorm_2", "scale"), "f32[1, 1, 1, 1024]");
     (("res_net/~/block_group_2/~/block_5/~/conv_0", "w"), "f32[1, 1, 1024, 256]");
     (("res_net/~/block_group_2/~/block_5/~/conv_1", "w"), "f32[3, 3, 256, 256]");
     (("res_net/~/block_group_2/~/block_5/~/conv_2", "w"), "f32[1, 1, 256, 1024]");
     (("res_net/~/block_group_3/~/block_0/~/batchnorm_0", "offset"), "f32[1, 1, 1, 512]");
     (("res_net/~/block_group_3/~/block_0/~/batchnorm_0", "scale"), "f32[1, 1, 1, 512]");
     (("res_net/~/block_group_3/~/block_0/~/batchnorm_1", "offset"), "f32[1, 1, 1, 512]");
     (("res_net/~/block_group_3/~/block_0/~/batchnorm_1", "scale"), "f32[1, 1, 1, 512]");
     (("res_net/~/block_group_3/~/block_0/~/batchnorm_2", "offset"), "f32[1, 1, 1, 2048]");
     (("res_net/~/block_group_3/~/block_0/~/batchnorm_2", "scale"), "f32[1, 1, 1, 2048]");
     (("res_net/~/block_group_3/~/block_0/~/conv_0", "w"), "f32[1, 1, 1024, 512]");
     (("res_net/~/block_group_3/~/block_0/~/conv_1", "w"), "f32[3, 3, 512, 512]");
     (("res_net/~/block_group_3/~/block_0/~/conv_2", "w"), "f32[1, 1, 512, 2048]");
     (("res_net/~/block_group_3/~/block_0/~/shortcut_batchnorm", "offset"), "f32[1, 1, 1, 2048]");
     (("res_net/~/block_group_3/~/block_0/~/shortcut_batchnorm", "scale"), "f32[1, 1, 1, 2048]");
     (("res_net/~/block_group_3/~/block_0/~/shortcut_conv", "w"), "f32[1, 1, 1024, 2048]");
     (("res_net/~/block_group_3/~/block_1/~/batchnorm_0", "offset"), "f32[1, 1, 1, 512]");
     (("res_net/~/block_group_3/~/block_1/~/batchnorm_0", "scale"), "f32[1, 1, 1, 512]");
     (("res_net/~/block_group_3/~/block_1/~/batchnorm_1", "offset"), "f32[1, 1, 1, 512]");
     (("res_net/~/block_group_3/~/block_1/~/batchnorm_1", "scale"), "f32[1, 1, 1, 512]");
     (("res_net/~/block_group_3/~/block_1/~/batchnorm_2", "offset"), "f32[1, 1, 1, 2048]");
     (("res_net/~/block_group_3/~/block_1/~/batchnorm_2", "scale"), "f32[1, 1, 1, 2048]");
     (("res_net/~/block_group_3/~/block_1/~/conv_0", "w"), "f32[1, 1, 2048, 512]");
     (("res_net/~/block_group_3/~/block_1/~/conv_1", "w"), "f32[3, 3, 512, 512]");
     (("res_net/~/block_group_3/~/block_1/~/conv_2", "w"), "f32[1, 1, 512, 2048]");
     (("res_net/~/block_group_3/~/block_2/~/batchnorm_0", "offset"), "f32[1, 1, 1, 512]");
     (("res_net/~/block_group_3/~/block_2/~/batchnorm_0", "scale"), "f32[1, 1, 1, 512]");
     (("res_net/~/block_group_3/~/block_2/~/batchnorm_1", "offset"), "f32[1, 1, 1, 512]");
     (("res_net/~/block_group_3/~/block_2/~/batchnorm_1", "scale"), "f32[1, 1, 1, 512]");
     (("res_net/~/block_group_3/~/block_2/~/batchnorm_2", "offset"), "f32[1, 1, 1, 2048]");
     (("res_net/~/block_group_3/~/block_2/~/batchnorm_2", "scale"), "f32[1, 1, 1, 2048]");
     (("res_net/~/block_group_3/~/block_2/~/conv_0", "w"), "f32[1, 1, 2048, 512]");
     (("res_net/~/block_group_3/~/block_2/~/conv_1", "w"), "f32[3, 3, 512, 512]");
     (("res_net/~/block_group_3/~/block_2/~/conv_2", "w"), "f32[1, 1, 512, 2048]");
     (("res_net/~/initial_batchnorm", "offset"), "f32[1, 1, 1, 64]");
     (("res_net/~/initial_batchnorm", "scale"), "f32[1, 1, 1, 64]");
     (("res_net/~/initial_conv", "w"), "f32[7, 7, 2, 64]");
     (("res_net/~/logits", "b"), "f32[1000]");
     (("res_net/~/logits", "w"), "f32[2048, 1000]")]))
   (Some (Tree 106346 425384
    [(("res_net/~/block_group_0/~/block_0/~/batchnorm_0/~/mean_ema", "average"), "f32[1, 1, 1, 64]");
     (("res_net/~/block_group_0/~/block_0/~/batchnorm_0/~/mean_ema", "counter"), "s32[]");
     (("res_net/~/block_group_0/~/block_0/~/batchnorm_0/~/mean_ema", "hidden"), "f32[1, 1, 1, 64]");
     (("res_net/~/block_group_0/~/block_0/~/batchnorm_0/~/var_ema", "average"), "f32[1, 1, 1, 64]");
     (("res_net/~/block_group_0/~/block_0/~/batchnorm_0/~/var_ema", "counter"), "s32[]");
     (("res_net/~/block_group_0/~/block_0/~/batchnorm_0/~/var_ema", "hidden"), "f32[1, 1, 1, 64]");
     (("res_net/~/block_group_0/~/block_0/~/batchnorm_1/~/mean_ema", "average"), "f32[1, 1, 1, 64]");
     (("res_net/~/block_group_0/~/block_0/~/batchnorm_1/~/mean_ema", "counter"), "s32[]");
     (("res_net/~/block_group_0/~/block_0/~/batchnorm_1/~/mean_ema", "hidden"), "f32[1, 1, 1, 64]");
     (("res_net/~/block_group_0/~/block_0/~/batchnorm_1/~/var_ema", "average"), "f32[1, 1, 1, 64]");
     (("res_net/~/block_group_0/~/block_0/~/batchnorm_1/~/var_ema", "counter"), "s32[]");
     (("res_net/~/block_group_0/~/block_0/~/batchnorm_1/~/var_ema", "hidden"), "f32[1, 1, 1, 64]");
     (("res_net/~/block_group_0/~/block_0/~/batchnorm_2/~/mean_ema", "average"), "f32[1, 1, 1, 256]");
     (("res_net/~/block_group_0/~/block_0/~/batchnorm_2/~/mean_ema", "counter"), "s32[]");
     (("res_net/~/block_group_0/~/block_0/~/batchnorm_2/~/mean_ema", "hidden"), "f32[1, 1, 1, 256]");
     (("res_net/~/block_group_0/~/block_0/~/batchnorm_2/~/var_ema", "average"), "f32[1, 1, 1, 256]");
     (("res_net/~/block_group_0/~/block_0/~/batchnorm_2/~/var_ema", "counter"), "s32[]");
     (("res_net/~/block_group_0/~/block_0/~/batchnorm_2/~/var_ema", "hidden"), "f32[1, 1, 1, 256]");
     (("res_net/~/block_group_0/~/block_0/~/shortcut_batchnorm/~/mean_ema", "average"), "f32[1, 1, 1, 256]");
     (("res_net/~/block_group_0/~/block_0/~/shortcut_batchnorm/~/mean_ema", "counter"), "s32[]");
     (("res_net/~/block_group_0/~/block_0/~/shortcut_batchnorm/~/mean_ema", "hidden"), "f32[1, 1, 1, 256]");
     (("res_net/~/block_group_0/~/block_0/~/shortcut_batchnorm/~/var_ema", "average"), "f32[1, 1, 1, 256]");
     (("res_net/~/block_group_0/~/block_0/~/shortcut_batchnorm/~/var_ema", "counter"), "s32[]");
     (("res_net/~/block_group_0/~/block_0/~/shortcut_batchnorm/~/var_ema", "hidden"), "f32[1, 1, 1, 256]");
     (("res_net/~/block_group_0/~/block_1/~/batchnorm_0/~/mean_ema", "average"), "f32[1, 1, 1, 64]");
     (("res_net/~/block_group_0/~/block_1/~/batchnorm_0/~/mean_ema", "counter"), "s32[]");
     (("res_net/~/block_group_0/~/block_1/~/batchnorm_0/~/mean_ema", "hidden"), "f32[1, 1, 1, 64]");
     (("res_net/~/block_group_0/~/block_1/~/batchnorm_0/~/var_ema", "average"), "f32[1, 1, 1, 64]");
     (("res_net/~/block_group_0/~/block_1/~/batchnorm_0/~/var_ema", "counter"), "s32[]");
     (("res_net/~/block_group_0/~/block_1/~/batchnorm_0/~/var_ema", "hidden"), "f32[1, 1, 1, 64]");
     (("res_net/~/block_group_0/~/block_1/~/batchnorm_1/~/mean_ema", "average"), "f32[1, 1, 1, 64]");
     (("res_net/~/block_group_0/~/block_1/~/batchnorm_1/~/mean_ema", "counter"), "s32[]");
     (("res_net/~/block_group_0/~/block_1/~/batchnorm_1/~/mean_ema", "hidden"), "f32[1, 1, 1, 64]");
     (("res_net/~/block_group_0/~/block_1/~/batchnorm_1/~/var_ema", "average"), "f32[1, 1, 1, 64]");
     (("res_net/~/block_group_0/~/block_1/~/batchnorm_1/~/var_ema", "counter"), "s32[]");
     (("res_net/~/block_group_0/~/block_1/~/batchnorm_1/~/var_ema", "hidden"), "f32[1, 1, 1, 64]");
     (("res_net/~/block_group_0/~/block_1/~/batchnorm_2/~/mean_ema", "average"), "f32[1, 1, 1, 256]");
     (("res_net/~/block_group_0/~/block_1/~/batchnorm_2/~/mean_ema", "counter"), "s32[]");
     (("res_net/~/block_group_0/~/block_1/~/batchnorm_2/~/mean_ema", "hidden"), "f32[1, 1, 1, 256]");
     (("res_net/~/block_group_0/~/block_1/~/batchnorm_2/~/var_ema", "average"), "f32[1, 1, 1, 256]");
     (("res_net/~/block_group_0/~/block_1/~/batchnorm_2/~/var_ema", "counter"), "s32[]");
     (("res_net/~/block_group_0/~/block_1/~/batchnorm_2/~/var_ema", "hidden"), "f32[1, 1, 1, 256]");
     (("res_net/~/block_group_0/~/block_2/~/batchnorm_0/~/mean_ema", "average"), "f32[1, 1, 1, 64]");
     (("res_net/~/block_group_0/~/block_2/~/batchnorm_0/~/mean_ema", "counter"), "s32[]");
     (("res_net/~/block_group_0/~/block_2/~/batchnorm_0/~/mean_ema", "hidden"), "f32[1, 1, 1, 64]");
     (("res_net/~/block_group_0/~/block_2/~/batchnorm_0/~/var_ema", "average"), "f32[1, 1, 1, 64]");
     (("res_net/~/block_group_0/~/block_2/~/batchnorm_0/~/var_ema", "counter"), "s32[]");
     (("res_net/~/block_group_0/~/block_2/~/batchnorm_0/~/var_ema", "hidden"), "f32[1, 1, 1, 64]");
     (("res_net/~/block_group_0/~/block_2/~/batchnorm_1/~/mean_ema", "average"), "f32[1, 1, 1, 64]");
     (("res_net/~/block_group_0/~/block_2/~/batchnorm_1/~/mean_ema", "counter"), "s32[]");
     (("res_net/~/block_group_0/~/block_2/~/batchnorm_1/~/mean_ema", "hidden"), "f32[1, 1, 1, 64]");
     (("res_net/~/block_group_0/~/block_2/~/batchnorm_1/~/var_ema", "average"), "f32[1, 1, 1, 64]");
     (("res_net/~/block_group_0/~/block_2/~/batchnorm_1/~/var_ema", "counter"), "s32[]");
     (("res_net/~/block_group_0/~/block_2/~/batchnorm_1/~/var_ema", "hidden"), "f32[1, 1, 1, 64]");
     (("res_net/~/block_group_0/~/block_2/~/batchnorm_2/~/mean_ema", "average"), "f32[1, 1, 1, 256]");
     (("res_net/~/block_group_0/~/block_2/~/batchnorm_2/~/mean_ema", "counter"), "s32[]");
     (("res_net/~/block_group_0/~/block_2/~/batchnorm_2/~/mean_ema", "hidden"), "f32[1, 1, 1, 256]");
     (("res_net/~/block_group_0/~/block_2/~/batchnorm_2/~/var_ema", "average"), "f32[1, 1, 1, 256]");
     (("res_net/~/block_group_0/~/block_2/~/batchnorm_2/~/var_ema", "counter"), "s32[]");
     (("res_net/~/block_group_0/~/block_2/~/batchnorm_2/~/var_ema", "hidden"), "f32[1, 1, 1, 256]");
     (("res_net/~/block_group_1/~/block_0/~/batchnorm_0/~/mean_ema", "average"), "f32[1, 1, 1, 128]");
     (("res_net/~/block_group_1/~/block_0/~/batchnorm_0/~/mean_ema", "counter"), "s32[]");
     (("res_net/~/block_group_1/~/block_0/~/batchnorm_0/~/mean_ema", "hidden"), "f32[1, 1, 1, 128]");
     (("res_net/~/block_group_1/~/block_0/~/batchnorm_0/~/var_ema", "average"), "f32[1, 1, 1, 128]");
     (("res_net/~/block_group_1/~/block_0/~/batchnorm_0/~/var_ema", "counter"), "s32[]");
     (("res_net/~/block_group_1/~/block_0/~/batchnorm_0/~/var_ema", "hidden"), "f32[1, 1, 1, 128]");
     (("res_net/~/block_group_1/~/block_0/~/batchnorm_1/~/mean_ema", "average"), "f32[1, 1, 1, 128]");
     (("res_net/~/block_group_1/~/block_0/~/batchnorm_1/~/mean_ema", "counter"), "s32[]");
     (("res_net/~/block_group_1/~/block_0/~/batchnorm_1/~/mean_ema", "hidden"), "f32[1, 1, 1, 128]");
     (("res_net/~/block_group_1/~/block_0/~/batchnorm_1/~/var_ema", "average"), "f32[1, 1, 1, 128]");
     (("res_net/~/block_group_1/~/block_0/~/batchnorm_1/~/var_ema", "counter"), "s32[]");
     (("res_net/~/block_group_1/~/block_0/~/batchnorm_1/~/var_ema", "hidden"), "f32[1, 1, 1, 128]");
     (("res_net/~/block_group_1/~/block_0/~/batchnorm_2/~/mean_ema", "average"), "f32[1, 1, 1, 512]");
     (("res_net/~/block_group_1/~/block_0/~/batchnorm_2/~/mean_ema", "counter"), "s32[]");
     (("res_net/~/block_group_1/~/block_0/~/batchnorm_2/~/mean_ema", "hidden"), "f32[1, 1, 1, 512]");
     (("res_net/~/block_group_1/~/block_0/~/batchnorm_2/~/var_ema", "average"), "f32[1, 1, 1, 512]");
     (("res_net/~/block_group_1/~/block_0/~/batchnorm_2/~/var_ema", "counter"), "s32[]");
     (("res_net/~/block_group_1/~/block_0/~/batchnorm_2/~/var_ema", "hidden"), "f32[1, 1, 1, 512]");
     (("res_net/~/block_group_1/~/block_0/~/shortcut_batchnorm/~/mean_ema", "average"), "f32[1, 1, 1, 512]");
     (("res_net/~/block_group_1/~/block_0/~/shortcut_batchnorm/~/mean_ema", "counter"), "s32[]");
     (("res_net/~/block_group_1/~/block_0/~/shortcut_batchnorm/~/mean_ema", "hidden"), "f32[1, 1, 1, 512]");
     (("res_net/~/block_group_1/~/block_0/~/shortcut_batchnorm/~/var_ema", "average"), "f32[1, 1, 1, 512]");
     (("res_net/~/block_group_1/~/block_0/~/shortcut_batchnorm/~/var_ema", "counter"), "s32[]");
     (("res_net/~/block_group_1/~/block_0/~/shortcut_batchnorm/~/var_ema", "hidden"), "f32[1, 1, 1, 512]");
     (("res_net/~/block_group_1/~/block_1/~/batchnorm_0/~/mean_ema", "average"), "f32[1, 1, 1, 128]");
     (("res_net/~/block_group_1/~/block_1/~/batchnorm_0/~/mean_ema", "counter"), "s32[]");
     (("res_net/~/block_group_1/~/block_1/~/batchnorm_0/~/mean_ema", "hidden"), "f32[1, 1, 1, 128]");
     (("res_net/~/block_group_1/~/block_1/~/batchnorm_0/~/var_ema", "average"), "f32[1, 1, 1, 128]");
     (("res_net/~/block_group_1/~/block_1/~/batchnorm_0/~/var_ema", "counter"), "s32[]");
     (("res_net/~/block_group_1/~/block_1/~/batchnorm_0/~/var_ema", "hidden"), "f32[1, 1, 1, 128]");
     (("res_net/~/block_group_1/~/block_1/~/batchnorm_1/~/mean_ema", "average"), "f32[1, 1, 1, 128]");
     (("res_net/~/block_group_1/~/block_1/~/batchnorm_1/~/mean_ema", "counter"), "s32[]");
     (("res_net/~/block_group_1/~/block_1/~/batchnorm_1/~/mean_ema", "hidden"), "f32[1, 1, 1, 128]");
     (("res_net/~/block_group_1/~/block_1/~/batchnorm_1/~/var_ema", "average"), "f32[1, 1, 1, 128]");
     (("res_net/~/block_group_1/~/block_1/~/batchnorm_1/~/var_ema", "counter"), "s32[]");
     (("res_net/~/block_group_1/~/block_1/~/batchnorm_1/~/var_ema", "hidden"), "f32[1, 1, 1, 128]");
     (("res_net/~/block_group_1/~/block_1/~/batchnorm_2/~/mean_ema", "average"), "f32[1, 1, 1, 512]");
     (("res_net/~/block_group_1/~/block_1/~/batchnorm_2/~/mean_ema", "counter"), "s32[]");
     (("res_net/~/block_group_1/~/block_1/~/batchnorm_2/~/mean_ema", "hidden"), "f32[1, 1, 1, 512]");
     (("res_net/~/block_group_1/~/block_1/~/batchnorm_2/~/var_ema", "average"), "f32[1, 1, 1, 512]");
     (("res_net/~/block_group_1/~/block_1/~/batchnorm_2/~/var_ema", "counter"), "s32[]");
     (("res_net/~/block_group_1/~/block_1/~/batchnorm_2/~/var_ema", "hidden"), "f32[1, 1, 1, 512]");
     (("res_net/~/block_group_1/~/block_2/~/batchnorm_0/~/mean_ema", "average"), "f32[1, 1, 1, 128]");
     (("res_net/~/block_group_1/~/block_2/~/batchnorm_0/~/mean_ema", "counter"), "s32[]");
     (("res_net/~/block_group_1/~/block_2/~/batchnorm_0/~/mean_ema", "hidden"), "f32[1, 1, 1, 128]");
     (("res_net/~/block_group_1/~/block_2/~/batchnorm_0/~/var_ema", "average"), "f32[1, 1, 1, 128]");
     (("res_net/~/block_group_1/~/block_2/~/batchnorm_0/~/var_ema", "counter"), "s32[]");
     (("res_net/~/block_group_1/~/block_2/~/batchnorm_0/~/var_ema", "hidden"), "f32[1, 1, 1, 128]");
     (("res_net/~/block_group_1/~/block_2/~/batchnorm_1/~/mean_ema", "average"), "f32[1, 1, 1, 128]");
     (("res_net/~/block_group_1/~/block_2/~/batchnorm_1/~/mean_ema", "counter"), "s32[]");
     (("res_net/~/block_group_1/~/block_2/~/batchnorm_1/~/mean_ema", "hidden"), "f32[1, 1, 1, 128]");
     (("res_net/~/block_group_1/~/block_2/~/batchnorm_1/~/var_ema", "average"), "f32[1, 1, 1, 128]");
     (("res_net/~/block_group_1/~/block_2/~/batchnorm_1/~/var_ema", "counter"), "s32[]");
     (("res_net/~/block_group_1/~/block_2/~/batchnorm_1/~/var_ema", "hidden"), "f32[1, 1, 1, 128]");
     (("res_net/~/block_group_1/~/block_2/~/batchnorm_2/~/mean_ema", "average"), "f32[1, 1, 1, 512]");
     (("res_net/~/block_group_1/~/block_2/~/batchnorm_2/~/mean_ema", "counter"), "s32[]");
     (("res_net/~/block_group_1/~/block_2/~/batchnorm_2/~/mean_ema", "hidden"), "f32[1, 1, 1, 512]");
     (("res_net/~/block_group_1/~/block_2/~/batchnorm_2/~/var_ema", "average"), "f32[1, 1, 1, 512]");
     (("res_net/~/block_group_1/~/block_2/~/batchnorm_2/~/var_ema", "counter"), "s32[]");
     (("res_net/~/block_group_1/~/block_2/~/batchnorm_2/~/var_ema", "hidden"), "f32[1, 1, 1, 512]");
     (("res_net/~/block_group_1/~/block_3/~/batchnorm_0/~/mean_ema", "average"), "f32[1, 1, 1, 128]");
     (("res_net/~/block_group_1/~/block_3/~/batchnorm_0/~/mean_ema", "counter"), "s32[]");
     (("res_net/~/block_group_1/~/block_3/~/batchnorm_0/~/mean_ema", "hidden"), "f32[1, 1, 1, 128]");
     (("res_net/~/block_group_1/~/block_3/~/batchnorm_0/~/var_ema", "average"), "f32[1, 1, 1, 128]");
     (("res_net/~/block_group_1/~/block_3/~/batchnorm_0/~/var_ema", "counter"), "s32[]");
     (("res_net/~/block_group_1/~/block_3/~/batchnorm_0/~/var_ema", "hidden"), "f32[1, 1, 1, 128]");
     (("res_net/~/block_group_1/~/block_3/~/batchnorm_1/~/mean_ema", "average"), "f32[1, 1, 1, 128]");
     (("res_net/~/block_group_1/~/block_3/~/batchnorm_1/~/mean_ema", "counter"), "s32[]");
     (("res_net/~/block_group_1/~/block_3/~/batchnorm_1/~/mean_ema", "hidden"), "f32[1, 1, 1, 128]");
     (("res_net/~/block_group_1/~/block_3/~/batchnorm_1/~/var_ema", "average"), "f32[1, 1, 1, 128]");
     (("res_net/~/block_group_1/~/block_3/~/batchnorm_1/~/var_ema", "counter"), "s32[]");
     (("res_net/~/block_group_1/~/block_3/~/batchnorm_1/~/var_ema", "hidden"), "f32[1, 1, 1, 128]");
     (("res_net/~/block_group_1/~/block_3/~/batchnorm_2/~/mean_ema", "average"), "f32[1, 1, 1, 512]");
     (("res_net/~/block_group_1/~/block_3/~/batchnorm_2/~/mean_ema", "counter"), "s32[]");
     (("res_net/~/block_group_1/~/block_3/~/batchnorm_2/~/mean_ema", "hidden"), "f32[1, 1, 1, 512]");
     (("res_net/~/block_group_1/~/block_3/~/batchnorm_2/~/var_ema", "average"), "f32[1, 1, 1, 512]");
     (("res_net/~/block_group_1/~/block_3/~/batchnorm_2/~/var_ema", "counter"), "s32[]");
     (("res_net/~/block_group_1/~/block_3/~/batchnorm_2/~/var_ema", "hidden"), "f32[1, 1, 1, 512]");
     (("res_net/~/block_group_2/~/block_0/~/batchnorm_0/~/mean_ema", "average"), "f32[1, 1, 1, 256]");
     (("res_net/~/block_group_2/~/block_0/~/batchnorm_0/~/mean_ema", "counter"), "s32[]");
     (("res_net/~/block_group_2/~/block_0/~/batchnorm_0/~/mean_ema", "hidden"), "f32[1, 1, 1, 256]");
     (("res_net/~/block_group_2/~/block_0/~/batchnorm_0/~/var_ema", "average"), "f32[1, 1, 1, 256]");
     (("res_net/~/block_group_2/~/block_0/~/batchnorm_0/~/var_ema", "counter"), "s32[]");
     (("res_net/~/block_group_2/~/block_0/~/batchnorm_0/~/var_ema", "hidden"), "f32[1, 1, 1, 256]");
     (("res_net/~/block_group_2/~/block_0/~/batchnorm_1/~/mean_ema", "average"), "f32[1, 1, 1, 256]");
     (("res_net/~/block_group_2/~/block_0/~/batchnorm_1/~/mean_ema", "counter"), "s32[]");
     (("res_net/~/block_group_2/~/block_0/~/batchnorm_1/~/mean_ema", "hidden"), "f32[1, 1, 1, 256]");
     (("res_net/~/block_group_2/~/block_0/~/batchnorm_1/~/var_ema", "average"), "f32[1, 1, 1, 256]");
     (("res_net/~/block_group_2/~/block_0/~/batchnorm_1/~/var_ema", "counter"), "s32[]");
     (("res_net/~/block_group_2/~/block_0/~/batchnorm_1/~/var_ema", "hidden"), "f32[1, 1, 1, 256]");
     (("res_net/~/block_group_2/~/block_0/~/batchnorm_2/~/mean_ema", "average"), "f32[1, 1, 1, 1024]");
     (("res_net/~/block_group_2/~/block_0/~/batchnorm_2/~/mean_ema", "counter"), "s32[]");
     (("res_net/~/block_group_2/~/block_0/~/batchnorm_2/~/mean_ema", "hidden"), "f32[1, 1, 1, 1024]");
     (("res_net/~/block_group_2/~/block_0/~/batchnorm_2/~/var_ema", "average"), "f32[1, 1, 1, 1024]");
     (("res_net/~/block_group_2/~/block_0/~/batchnorm_2/~/var_ema", "counter"), "s32[]");
     (("res_net/~/block_group_2/~/block_0/~/batchnorm_2/~/var_ema", "hidden"), "f32[1, 1, 1, 1024]");
     (("res_net/~/block_group_2/~/block_0/~/shortcut_batchnorm/~/mean_ema", "average"), "f32[1, 1, 1, 1024]");
     (("res_net/~/block_group_2/~/block_0/~/shortcut_batchnorm/~/mean_ema", "counter"), "s32[]");
     (("res_net/~/block_group_2/~/block_0/~/shortcut_batchnorm/~/mean_ema", "hidden"), "f32[1, 1, 1, 1024]");
     (("res_net/~/block_group_2/~/block_0/~/shortcut_batchnorm/~/var_ema", "average"), "f32[1, 1, 1, 1024]");
     (("res_net/~/block_group_2/~/block_0/~/shortcut_batchnorm/~/var_ema", "counter"), "s32[]");
     (("res_net/~/block_group_2/~/block_0/~/shortcut_batchnorm/~/var_ema", "hidden"), "f32[1, 1, 1, 1024]");
     (("res_net/~/block_group_2/~/block_1/~/batchnorm_0/~/mean_ema", "average"), "f32[1, 1, 1, 256]");
     (("res_net/~/block_group_2/~/block_1/~/batchnorm_0/~/mean_ema", "counter"), "s32[]");
     (("res_net/~/block_group_2/~/block_1/~/batchnorm_0/~/mean_ema", "hidden"), "f32[1, 1, 1, 256]");
     (("res_net/~/block_group_2/~/block_1/~/batchnorm_0/~/var_ema", "average"), "f32[1, 1, 1, 256]");
     (("res_net/~/block_group_2/~/block_1/~/batchnorm_0/~/var_ema", "counter"), "s32[]");
     (("res_net/~/block_group_2/~/block_1/~/batchnorm_0/~/var_ema", "hidden"), "f32[1, 1, 1, 256]");
     (("res_net/~/block_group_2/~/block_1/~/batchnorm_1/~/mean_ema", "average"), "f32[1, 1, 1, 256]");
     (("res_net/~/block_group_2/~/block_1/~/batchnorm_1/~/mean_ema", "counter"), "s32[]");
     (("res_net/~/block_group_2/~/block_1/~/batchnorm_1/~/mean_ema", "hidden"), "f32[1, 1, 1, 256]");
     (("res_net/~/block_group_2/~/block_1/~/batchnorm_1/~/var_ema", "average"), "f32[1, 1, 1, 256]");
     (("res_net/~/block_group_2/~/block_1/~/batchnorm_1/~/var_ema", "counter"), "s32[]");
     (("res_net/~/block_group_2/~/block_1/~/batchnorm_1/~/var_ema", "hidden"), "f32[1, 1, 1, 256]");
     (("res_net/~/block_group_2/~/block_1/~/batchnorm_2/~/mean_ema", "average"), "f32[1, 1, 1, 1024]");
     (("res_net/~/block_group_2/~/block_1/~/batchnorm_2/~/mean_ema", "counter"), "s32[]");
     (("res_net/~/block_group_2/~/block_1/~/batchnorm_2/~/mean_ema", "hidden"), "f32[1, 1, 1, 1024]");
     (("res_net/~/block_group_2/~/block_1/~/batchnorm_2/~/var_ema", "average"), "f32[1, 1, 1, 1024]");
     (("res_net/~/block_group_2/~/block_1/~/batchnorm_2/~/var_ema", "counter"), "s32[]");
     (("res_net/~/block_group_2/~/block_1/~/batchnorm_2/~/var_ema", "hidden"), "f32[1, 1, 1, 1024]");
     (("res_net/~/block_group_2/~/block_2/~/batchnorm_0/~/mean_ema", "average"), "f32[1, 1, 1, 256]");
     (("res_net/~/block_group_2/~/block_2/~/batchnorm_0/~/mean_ema", "counter"), "s32[]");
     (("res_net/~/block_group_2/~/block_2/~/batchnorm_0/~/mean_ema", "hidden"), "f32[1, 1, 1, 256]");
     (("res_net/~/block_group_2/~/block_2/~/batchnorm_0/~/var_ema", "average"), "f32[1, 1, 1, 256]");
     (("res_net/~/block_group_2/~/block_2/~/batchnorm_0/~/var_ema", "counter"), "s32[]");
     (("res_net/~/block_group_2/~/block_2/~/batchnorm_0/~/var_ema", "hidden"), "f32[1, 1, 1, 256]");
     (("res_net/~/block_group_2/~/block_2/~/batchnorm_1/~/mean_ema", "average"), "f32[1, 1, 1, 256]");
     (("res_net/~/block_group_2/~/block_2/~/batchnorm_1/~/mean_ema", "counter"), "s32[]");
     (("res_net/~/block_group_2/~/block_2/~/batchnorm_1/~/mean_ema", "hidden"), "f32[1, 1, 1, 256]");
     (("res_net/~/block_group_2/~/block_2/~/batchnorm_1/~/var_ema", "average"), "f32[1, 1, 1, 256]");
     (("res_net/~/block_group_2/~/block_2/~/batchnorm_1/~/var_ema", "counter"), "s32[]");
     (("res_net/~/block_group_2/~/block_2/~/batchnorm_1/~/var_ema", "hidden"), "f32[1, 1, 1, 256]");
     (("res_net/~/block_group_2/~/block_2/~/batchnorm_2/~/mean_ema", "average"), "f32[1, 1, 1, 1024]");
     (("res_net/~/block_group_2/~/block_2/~/batchnorm_2/~/mean_ema", "counter"), "s32[]");
     (("res_net/~/block_group_2/~/block_2/~/batchnorm_2/~/mean_ema", "hidden"), "f32[1, 1, 1, 1024]");
     (("res_net/~/block_group_2/~/block_2/~/batchnorm_2/~/var_ema", "average"), "f32[1, 1, 1, 1024]");
     (("res_net/~/block_group_2/~/block_2/~/batchnorm_2/~/var_ema", "counter"), "s32[]");
     (("res_net/~/block_group_2/~/block_2/~/batchnorm_2/~/var_ema", "hidden"), "f32[1, 1, 1, 1024]");
     (("res_net/~/block_group_2/~/block_3/~/batchnorm_0/~/mean_ema", "average"), "f32[1, 1, 1, 256]");
     (("res_net/~/block_group_2/~/block_3/~/batchnorm_0/~/mean_ema", "counter"), "s32[]");
     (("res_net/~/block_group_2/~/block_3/~/batchnorm_0/~/mean_ema", "hidden"), "f32[1, 1, 1, 256]");
     (("res_net/~/block_group_2/~/block_3/~/batchnorm_0/~/var_ema", "average"), "f32[1, 1, 1, 256]");
     (("res_net/~/block_group_2/~/block_3/~/batchnorm_0/~/var_ema", "counter"), "s32[]");
     (("res_net/~/block_group_2/~/block_3/~/batchnorm_0/~/var_ema", "hidden"), "f32[1, 1, 1, 256]");
     (("res_net/~/block_group_2/~/block_3/~/batchnorm_1/~/mean_ema", "average"), "f32[1, 1, 1, 256]");
     (("res_net/~/block_group_2/~/block_3/~/batchnorm_1/~/mean_ema", "counter"), "s32[]");
     (("res_net/~/block_group_2/~/block_3/~/batchnorm_1/~/mean_ema", "hidden"), "f32[1, 1, 1, 256]");
     (("res_net/~/block_group_2/~/block_3/~/batchnorm_1/~/var_ema", "average"), "f32[1, 1, 1, 256]");
     (("res_net/~/block_group_2/~/block_3/~/batchnorm_1/~/var_ema", "counter"), "s32[]");
     (("res_net/~/block_group_2/~/block_3/~/batchnorm_1/~/var_ema", "hidden"), "f32[1, 1, 1, 256]");
     (("res_net/~/block_group_2/~/block_3/~/batchnorm_2/~/mean_ema", "average"), "f32[1, 1, 1, 1024]");
     (("res_net/~/block_group_2/~/block_3/~/batchnorm_2/~/mean_ema", "counter"), "s32[]");
     (("res_net/~/block_group_2/~/block_3/~/batchnorm_2/~/mean_ema", "hidden"), "f32[1, 1, 1, 1024]");
     (("res_net/~/block_group_2/~/block_3/~/batchnorm_2/~/var_ema", "average"), "f32[1, 1, 1, 1024]");
     (("res_net/~/block_group_2/~/block_3/~/batchnorm_2/~/var_ema", "counter"), "s32[]");
     (("res_net/~/block_group_2/~/block_3/~/batchnorm_2/~/var_ema", "hidden"), "f32[1, 1, 1, 1024]");
     (("res_net/~/block_group_2/~/block_4/~/batchnorm_0/~/mean_ema", "average"), "f32[1, 1, 1, 256]");
     (("res_net/~/block_group_2/~/block_4/~/batchnorm_0/~/mean_ema", "counter"), "s32[]");
     (("res_net/~/block_group_2/~/block_4/~/batchnorm_0/~/mean_ema", "hidden"), "f32[1, 1, 1, 256]");
     (("res_net/~/block_group_2/~/block_4/~/batchnorm_0/~/var_ema", "average"), "f32[1, 1, 1, 256]");
     (("res_net/~/block_group_2/~/block_4/~/batchnorm_0/~/var_ema", "counter"), "s32[]");
     (("res_net/~/block_group_2/~/block_4/~/batchnorm_0/~/var_ema", "hidden"), "f32[1, 1, 1, 256]");
     (("res_net/~/block_group_2/~/block_4/~/batchnorm_1/~/mean_ema", "average"), "f32[1, 1, 1, 256]");
     (("res_net/~/block_group_2/~/block_4/~/batchnorm_1/~/mean_ema", "counter"), "s32[]");
     (("res_net/~/block_group_2/~/block_4/~/batchnorm_1/~/mean_ema", "hidden"), "f32[1, 1, 1, 256]");
     (("res_net/~/block_group_2/~/block_4/~/batchnorm_1/~/var_ema", "average"), "f32[1, 1, 1, 256]");
     (("res_net/~/block_group_2/~/block_4/~/batchnorm_1/~/var_ema", "counter"), "s32[]");
     (("res_net/~/block_group_2/~/block_4/~/batchnorm_1/~/var_ema", "hidden"), "f32[1, 1, 1, 256]");
     (("res_net/~/block_group_2/~/block_4/~/batchnorm_2/~/mean_ema", "average"), "f32[1, 1, 1, 1024]");
     (("res_net/~/block_group_2/~/block_4/~/batchnorm_2/~/mean_ema", "counter"), "s32[]");
     (("res_net/~/block_group_2/~/block_4/~/batchnorm_2/~/mean_ema", "hidden"), "f32[1, 1, 1, 1024]");
     (("res_net/~/block_group_2/~/block_4/~/batchnorm_2/~/var_ema", "average"), "f32[1, 1, 1, 1024]");
     (("res_net/~/block_group_2/~/block_4/~/batchnorm_2/~/var_ema", "counter"), "s32[]");
     (("res_net/~/block_group_2/~/block_4/~/batchnorm_2/~/var_ema", "hidden"), "f32[1, 1, 1, 1024]");
     (("res_net/~/block_group_2/~/block_5/~/batchnorm_0/~/mean_ema", "average"), "f32[1, 1, 1, 256]");
     (("res_net/~/block_group_2/~/block_5/~/batchnorm_0/~/mean_ema", "counter"), "s32[]");
     (("res_net/~/block_group_2/~/block_5/~/batchnorm_0/~/mean_ema", "hidden"), "f32[1, 1, 1, 256]");
     (("res_net/~/block_group_2/~/block_5/~/batchnorm_0/~/var_ema", "average"), "f32[1, 1, 1, 256]");
     (("res_net/~/block_group_2/~/block_5/~/batchnorm_0/~/var_ema", "counter"), "s32[]");
     (("res_net/~/block_group_2/~/block_5/~/batchnorm_0/~/var_ema", "hidden"), "f32[1, 1, 1, 256]");
     (("res_net/~/block_group_2/~/block_5/~/batchnorm_1/~/mean_ema", "average"), "f32[1, 1, 1, 256]");
     (("res_net/~/block_group_2/~/block_5/~/batchnorm_1/~/mean_ema", "counter"), "s32[]");
     (("res_net/~/block_group_2/~/block_5/~/batchnorm_1/~/mean_ema", "hidden"), "f32[1, 1, 1, 256]");
     (("res_net/~/block_group_2/~/block_5/~/batchnorm_1/~/var_ema", "average"), "f32[1, 1, 1, 256]");
     (("res_net/~/block_group_2/~/block_5/~/batchnorm_1/~/var_ema", "counter"), "s32[]");
     (("res_net/~/block_group_2/~/block_5/~/batchnorm_1/~/var_ema", "hidden"), "f32[1, 1, 1, 256]");
     (("res_net/~/block_group_2/~/block_5/~/batchnorm_2/~/mean_ema", "average"), "f32[1, 1, 1, 1024]");
     (("res_net/~/block_group_2/~/block_5/~/batchnorm_2/~/mean_ema", "counter"), "s32[]");
     (("res_net/~/block_group_2/~/block_5/~/batchnorm_2/~/mean_ema", "hidden"), "f32[1, 1, 1, 1024]");
     (("res_net/~/block_group_2/~/block_5/~/batchnorm_2/~/var_ema", "average"), "f32[1, 1, 1, 1024]");
     (("res_net/~/block_group_2/~/block_5/~/batchnorm_2/~/var_ema", "counter"), "s32[]");
     (("res_net/~/block_group_2/~/block_5/~/batchnorm_2/~/var_ema", "hidden"), "f32[1, 1, 1, 1024]");
     (("res_net/~/block_group_3/~/block_0/~/batchnorm_0/~/mean_ema", "average"), "f32[1, 1, 1, 512]");
     (("res_net/~/block_group_3/~/block_0/~/batchnorm_0/~/mean_ema", "counter"), "s32[]");
     (("res_net/~/block_group_3/~/block_0/~/batchnorm_0/~/mean_ema", "hidden"), "f32[1, 1, 1, 512]");
     (("res_net/~/block_group_3/~/block_0/~/batchnorm_0/~/var_ema", "average"), "f32[1, 1, 1, 512]");
     (("res_net/~/block_group_3/~/block_0/~/batchnorm_0/~/var_ema", "counter"), "s32[]");
     (("res_net/~/block_group_3/~/block_0/~/batchnorm_0/~/var_ema", "hidden"), "f32[1, 1, 1, 512]");
     (("res_net/~/block_group_3/~/block_0/~/batchnorm_1/~/mean_ema", "average"), "f32[1, 1, 1, 512]");
     (("res_net/~/block_group_3/~/block_0/~/batchnorm_1/~/mean_ema", "counter"), "s32[]");
     (("res_net/~/block_group_3/~/block_0/~/batchnorm_1/~/mean_ema", "hidden"), "f32[1, 1, 1, 512]");
     (("res_net/~/block_group_3/~/block_0/~/batchnorm_1/~/var_ema", "average"), "f32[1, 1, 1, 512]");
     (("res_net/~/block_group_3/~/block_0/~/batchnorm_1/~/var_ema", "counter"), "s32[]");
     (("res_net/~/block_group_3/~/block_0/~/batchnorm_1/~/var_ema", "hidden"), "f32[1, 1, 1, 512]");
     (("res_net/~/block_group_3/~/block_0/~/batchnorm_2/~/mean_ema", "average"), "f32[1, 1, 1, 2048]");
     (("res_net/~/block_group_3/~/block_0/~/batchnorm_2/~/mean_ema", "counter"), "s32[]");
     (("res_net/~/block_group_3/~/block_0/~/batchnorm_2/~/mean_ema", "hidden"), "f32[1, 1, 1, 2048]");
     (("res_net/~/block_group_3/~/block_0/~/batchnorm_2/~/var_ema", "average"), "f32[1, 1, 1, 2048]");
     (("res_net/~/block_group_3/~/block_0/~/batchnorm_2/~/var_ema", "counter"), "s32[]");
     (("res_net/~/block_group_3/~/block_0/~/batchnorm_2/~/var_ema", "hidden"), "f32[1, 1, 1, 2048]");
     (("res_net/~/block_group_3/~/block_0/~/shortcut_batchnorm/~/mean_ema", "average"), "f32[1, 1, 1, 2048]");
     (("res_net/~/block_group_3/~/block_0/~/shortcut_batchnorm/~/mean_ema", "counter"), "s32[]");
     (("res_net/~/block_group_3/~/block_0/~/shortcut_batchnorm/~/mean_ema", "hidden"), "f32[1, 1, 1, 2048]");
     (("res_net/~/block_group_3/~/block_0/~/shortcut_batchnorm/~/var_ema", "average"), "f32[1, 1, 1, 2048]");
     (("res_net/~/block_group_3/~/block_0/~/shortcut_batchnorm/~/var_ema", "counter"), "s32[]");
     (("res_net/~/block_group_3/~/block_0/~/shortcut_batchnorm/~/var_ema", "hidden"), "f32[1, 1, 1, 2048]");
     (("res_net/~/block_group_3/~/block_1/~/batchnorm_0/~/mean_ema", "average"), "f32[1, 1, 1, 512]");
     (("res_net/~/block_group_3/~/block_1/~/batchnorm_0/~/mean_ema", "counter"), "s32[]");
     (("res_net/~/block_group_3/~/block_1/~/batchnorm_0/~/mean_ema", "hidden"), "f32[1, 1, 1, 512]");
     (("res_net/~/block_group_3/~/block_1/~/batchnorm_0/~/var_ema", "average"), "f32[1, 1, 1, 512]");
     (("res_net/~/block_group_3/~/block_1/~/batchnorm_0/~/var_ema", "counter"), "s32[]");
     (("res_net/~/block_group_3/~/block_1/~/batchnorm_0/~/var_ema", "hidden"), "f32[1, 1, 1, 512]");
     (("res_net/~/block_group_3/~/block_1/~/batchnorm_1/~/mean_ema", "average"), "f32[1, 1, 1, 512]");
     (("res_net/~/block_group_3/~/block_1/~/batchnorm_1/~/mean_ema", "counter"), "s32[]");
     (("res_net/~/block_group_3/~/block_1/~/batchnorm_1/~/mean_ema", "hidden"), "f32[1, 1, 1, 512]");
     (("res_net/~/block_group_3/~/block_1/~/batchnorm_1/~/var_ema", "average"), "f32[1, 1, 1, 512]");
     (("res_net/~/block_group_3/~/block_1/~/batchnorm_1/~/var_ema", "counter"), "s32[]");
     (("res_net/~/block_group_3/~/block_1/~/batchnorm_1/~/var_ema", "hidden"), "f32[1, 1, 1, 512]");
     (("res_net/~/block_group_3/~/block_1/~/batchnorm_2/~/mean_ema", "average"), "f32[1, 1, 1, 2048]");
     (("res_net/~/block_group_3/~/block_1/~/batchnorm_2/~/mean_ema", "counter"), "s32[]");
     (("res_net/~/block_group_3/~/block_1/~/batchnorm_2/~/mean_ema", "hidden"), "f32[1, 1, 1, 2048]");
     (("res_net/~/block_group_3/~/block_1/~/batchnorm_2/~/var_ema", "average"), "f32[1, 1, 1, 2048]");
     (("res_net/~/block_group_3/~/block_1/~/batchnorm_2/~/var_ema", "counter"), "s32[]");
     (("res_net/~/block_group_3/~/block_1/~/batchnorm_2/~/var_ema", "hidden"), "f32[1, 1, 1, 2048]");
     (("res_net/~/block_group_3/~/block_2/~/batchnorm_0/~/mean_ema", "average"), "f32[1, 1, 1, 512]");
     (("res_net/~/block_group_3/~/block_2/~/batchnorm_0/~/mean_ema", "counter"), "s32[]");
     (("res_net/~/block_group_3/~/block_2/~/batchnorm_0/~/mean_ema", "hidden"), "f32[1, 1, 1, 512]");
     (("res_net/~/block_group_3/~/block_2/~/batchnorm_0/~/var_ema", "average"), "f32[1, 1, 1, 512]");
     (("res_net/~/block_group_3/~/block_2/~/batchnorm_0/~/var_ema", "counter"), "s32[]");
     (("res_net/~/block_group_3/~/block_2/~/batchnorm_0/~/var_ema", "hidden"), "f32[1, 1, 1, 512]");
     (("res_net/~/block_group_3/~/block_2/~/batchnorm_1/~/mean_ema", "average"), "f32[1, 1, 1, 512]");
     (("res_net/~/block_group_3/~/block_2/~/batchnorm_1/~/mean_ema", "counter"), "s32[]");
     (("res_net/~/block_group_3/~/block_2/~/batchnorm_1/~/mean_ema", "hidden"), "f32[1, 1, 1, 512]");
     (("res_net/~/block_group_3/~/block_2/~/batchnorm_1/~/var_ema", "average"), "f32[1, 1, 1, 512]");
     (("res_net/~/block_group_3/~/block_2/~/batchnorm_1/~/var_ema", "counter"), "s32[]");
     (("res_net/~/block_group_3/~/block_2/~/batchnorm_1/~/var_ema", "hidden"), "f32[1, 1, 1, 512]");
     (("res_net/~/block_group_3/~/block_2/~/batchnorm_2/~/mean_ema", "average"), "f32[1, 1, 1, 2048]");
     (("res_net/~/block_group_3/~/block_2/~/batchnorm_2/~/mean_ema", "counter"), "s32[]");
     (("res_net/~/block_group_3/~/block_2/~/batchnorm_2/~/mean_ema", "hidden"), "f32[1, 1, 1, 2048]");
     (("res_net/~/block_group_3/~/block_2/~/batchnorm_2/~/var_ema", "average"), "f32[1, 1, 1, 2048]");
     (("res_net/~/block_group_3/~/block_2/~/batchnorm_2/~/var_ema", "counter"), "s32[]");
     (("res_net/~/block_group_3/~/block_2/~/batchnorm_2/~/var_ema", "hidden"), "f32[1, 1, 1, 2048]");
     (("res_net/~/initial_batchnorm/~/mean_ema", "average"), "f32[1, 1, 1, 64]");
     (("res_net/~/initial_batchnorm/~/mean_ema", "counter"), "s32[]");
     (("res_net/~/initial_batchnorm/~/mean_ema", "hidden"), "f32[1, 1, 1, 64]");
     (("res_net/~/initial_batchnorm/~/var_ema", "average"), "f32[1, 1, 1, 64]");
     (("res_net/~/initial_batchnorm/~/var_ema", "counter"), "s32[]");
     (("res_net/~/initial_batchnorm/~/var_ema", "hidden"), "f32[1, 1, 1, 64]")])));
  ("nets.VectorQuantizer", Summary "f32[8, 64]"
   (Some (Tree 32768 131072
    [(("vector_quantizer", "embeddings"), "f32[64, 512]")]))
   None);
  ("nets.VectorQuantizerEMA", Summary "f32[8, 64]"
   None
   (Some (Tree 99330 397320
    [(("vector_quantizer_ema", "embeddings"), "f32[64, 512]");
     (("vector_quantizer_ema/~/ema_cluster_size", "average"), "f32[512]");
     (("vector_quantizer_ema/~/ema_cluster_size", "counter"), "s32[]");
     (("vector_quantizer_ema/~/ema_cluster_size", "hidden"), "f32[512]");
     (("vector_quantizer_ema/~/ema_dw", "average"), "f32[64, 512]");
     (("vector_quantizer_ema/~/ema_dw", "counter"), "s32[]");
     (("vector_quantizer_ema/~/ema_dw", "hidden"), "f32[64, 512]")])))].
